(** VLSD visits every promising description once (for the set representation; VLSDRel
    transfers the result to the bitsets). *)
From Verif Require Export VLSDRel MiningSpec.
From Verif Require Import SDMapProofs MiningProofs VerticalProofs OrderFacts CoreOrder.
Open Scope string_scope.
Open Scope list_scope.
Open Scope nat_scope.

Lemma fold_res_app : forall {A S} (f : S -> A -> res S) l m s, fold_res f (l ++ m) s = do s' <- fold_res f l s; fold_res f m s'.
Proof. intros A S f l m. induction l as [|x l IH]; intros s; cbn [app fold_res bind]; auto. destruct (f s x); cbn [bind]; auto. Qed.
Lemma vl_sort_perm : forall {Seq V} (c : vl_config V) k (l : list (vlist Seq V)), Permutation l (vl_sort c k l).
Proof. intros. unfold vl_sort. destruct k; auto using sort_by_perm. Qed.

Section Main.
  Context {V : Type}.
  Variable c : vl_config V.
  Variable df : dataframe.
  Variables tcol tval : string.
  Hypothesis Hcat : categorical df.
  Hypothesis Hcol : has_column df tcol.
  Let tsel := Sel tcol EQUAL (VStr tval).
  Let TP := TP_of df tcol tval.
  Let FP := FP_of df tcol tval.
  Let qf := join_oe c TP FP.
  Let handle := @vl_handle (list nat) V c tsel TP FP.
  Notation vl := (vlist (list nat) V).

  (** A non-empty set of selectors over the non-target columns, with a covered row. *)
  Definition covered (X : list selector) : Prop :=
    X <> [] /\ NoDup X /\ (forall s, In s X -> U df tcol s) /\ 1 <= coverage df X.
  Definition estimate (X : list selector) : res V := quality (vc_oe c) df tcol tval X.
  Definition value (X : list selector) : res V := quality (vc_measure c) df tcol tval X.
  Definition same_set (X Y : list selector) : Prop := forall s, In s X <-> In s Y.
  (** No part of [X] is cut by the estimate. *)
  Definition promising (X : list selector) : Prop :=
    forall Y o, Y <> [] -> incl Y X -> estimate Y = Ok o -> vc_oe_reaches c o = true.
  Definition built (v : vl) : Prop := built_on df tsel qf vls_init (vls_join qf) v.
  Definition good (v : vl) : Prop :=
    built v /\ covered (vl_sels v) /\ estimate (vl_sels v) = Ok (vl_quality v) /\ vc_oe_reaches c (vl_quality v) = true.

  Lemma quality_same : forall m X Y, same_set X Y -> quality m df tcol tval X = quality (V := V) m df tcol tval Y.
  Proof. intros m X Y H. unfold quality. destruct (counts_perm df tsel X Y H) as (E1 & E2 & _). fold tsel. rewrite E1, E2. reflexivity. Qed.
  Lemma coverage_same : forall X Y, same_set X Y -> coverage df X = coverage df Y.
  Proof. intros X Y H. apply (counts_perm df tsel X Y H). Qed.
  Lemma coverage_incl : forall X Y, incl X Y -> coverage df Y <= coverage df X.
  Proof.
    intros X Y H. unfold coverage. induction (seq 0 (df_n df)) as [|i l IH]; [auto|]. cbn [filter].
    destruct (forallb (row_matchesb df i) Y) eqn:E.
    - change (forallb (row_matchesb df i) X) with (matches_all df X i). rewrite (matches_all_incl df X Y i H E). cbn [length]. lia.
    - destruct (forallb (row_matchesb df i) X); cbn [length]; lia.
  Qed.
  Lemma promising_incl : forall X Y, incl Y X -> promising X -> promising Y.
  Proof. intros X Y H P Z o NZ IZ. apply P; auto. intros x Ix; auto. Qed.
  Lemma promising_self : forall X o, X <> [] -> promising X -> estimate X = Ok o -> vc_oe_reaches c o = true.
  Proof. intros X o NX P. apply P; auto. apply incl_refl. Qed.

  Lemma built_describes : forall v, built v -> describes_rows df tsel qf v.
  Proof. intros v H. apply (built_sets_exact df tsel qf v H). Qed.
  Lemma built_counts : forall v, built v -> Z.of_nat (vl_tp v) = tp_of df tsel (vl_sels v) /\ Z.of_nat (vl_fp v) = fp_of df tsel (vl_sels v).
  Proof. intros v H. destruct (built_describes v H) as (E1 & E2 & _). unfold tp_of, fp_of. rewrite E1, E2. auto. Qed.
  Lemma qf_estimate : forall X, qf (length (pos_rows df tsel X)) (length (neg_rows df tsel X)) = estimate X.
  Proof. reflexivity. Qed.

  (** * Joins *)
  Lemma join_out : forall a b beta l, built a -> built b -> vl_sels b = beta ++ [l] -> incl beta (vl_sels a) ->
    (coverage df (vl_sels a ++ [l]) = 0 /\ vls_join qf a b true = Ok None) \/
    (1 <= coverage df (vl_sels a ++ [l]) /\ exists e, estimate (vl_sels a ++ [l]) = Err e /\ vls_join qf a b true = Err e) \/
    (1 <= coverage df (vl_sels a ++ [l]) /\ exists v, vls_join qf a b true = Ok (Some v) /\ built v /\ vl_sels v = vl_sels a ++ [l] /\
       estimate (vl_sels a ++ [l]) = Ok (vl_quality v)).
  Proof.
    intros a b beta l Ha Hb Eb Hi.
    assert (Hi' : incl (removelast (vl_sels b)) (vl_sels a)) by (rewrite Eb, removelast_last; auto).
    assert (SS : same_set (vl_sels a ++ vl_sels b) (vl_sels a ++ [l])).
    { intros s. rewrite Eb, !in_app_iff. specialize (Hi s). tauto. }
    destruct (vls_join_cases df tsel qf a b true Ha Hb Hi') as [J1 J2]. rewrite (coverage_same _ _ SS) in J1.
    destruct (vls_join qf a b true) as [[v|]|e] eqn:E.
    - right. right. split.
      + destruct (coverage df (vl_sels a ++ [l])) eqn:C; [|lia]. assert (X : Ok (Some v) = Ok (@None vl)) by (apply J1; auto). discriminate.
      + assert (Bv : built v) by (exact (built_join _ _ _ _ _ a b true v Ha Hb Hi' E)). exists v. split; auto. split; auto.
        assert (Sv : vl_sels v = vl_sels a ++ [l]).
        { unfold vls_join in E. destruct (negb (vl_size a =? vl_size b)); [discriminate|]. cbn zeta in E. destruct (negb true || _); [|discriminate].
          rewrite Eb, last_elem_app in E. cbn [bind] in E. destruct (qf _ _); cbn [bind] in E; [|discriminate]. injection E as <-. reflexivity. }
        split; auto. destruct (built_describes v Bv) as (E1 & E2 & _ & _ & E3). rewrite E1, E2, Sv in E3. exact E3.
    - left. split; auto. apply J1; auto.
    - right. left. split.
      + destruct (coverage df (vl_sels a ++ [l])) eqn:C; [|lia]. assert (X : @Err (option vl) e = Ok None) by (apply J1; auto). discriminate.
      + exists e. split; auto. specialize (J2 e eq_refl). rewrite qf_estimate in J2. rewrite <- J2. symmetry. apply quality_same; auto.
  Qed.

  (** * Outcomes of a part of the search: a list of visited vertical lists, independent of the
        state, or an error of the estimate (unless the measure raises before). *)
  Definition raises (m : list selector -> res V) (e : exn) : Prop := exists X, covered X /\ m X = Err e.
  Definition outcome (run : vl_state (list nat) V -> res (vl_state (list nat) V)) (Pr : list vl -> Prop) : Prop :=
    (exists L, Forall good L /\ Pr L /\ forall st, run st = fold_res handle L st) \/
    ((exists e, raises estimate e) /\ forall st, exists e, run st = Err e /\ (raises estimate e \/ raises value e)).
  Lemma handle_value : forall st v, good v ->
    (exists q st', value (vl_sels v) = Ok q /\ handle st v = Ok st') \/ (exists e, value (vl_sels v) = Err e /\ handle st v = Err e).
  Proof.
    intros st v (Bv & _). destruct (built_counts v Bv) as [E1 E2]. unfold handle, vl_handle. rewrite E1, E2.
    change (vc_measure c _ _ _ _) with (value (vl_sels v)). destruct (value (vl_sels v)) as [q|e]; cbn [bind]; [left|right]; eauto.
  Qed.
  Lemma handle_raises : forall L st e, Forall good L -> fold_res handle L st = Err e -> raises value e.
  Proof.
    intros L st e G. revert st. induction G as [|v L Gv G IH]; intros st E; cbn [fold_res] in E; [discriminate|].
    destruct (handle_value st v Gv) as [(q & st' & E1 & E2)|(e' & E1 & E2)]; rewrite E2 in E; cbn [bind] in E.
    - eapply IH; eauto.
    - injection E as <-. exists (vl_sels v). split; auto. apply Gv.
  Qed.
  Lemma outcome_visit : forall L (Pr : list vl -> Prop), Forall good L -> Pr L -> outcome (fun st => fold_res handle L st) Pr.
  Proof. intros L Pr G H. left. exists L. auto. Qed.
  Lemma outcome_weaken : forall run (Pr Pr' : list vl -> Prop), outcome run Pr -> (forall L, Forall good L -> Pr L -> Pr' L) -> outcome run Pr'.
  Proof. intros run Pr Pr' [(L & G & H & E)|H] W; [left|right; auto]. exists L. auto. Qed.
  Lemma outcome_ext : forall run run' Pr, outcome run Pr -> (forall st, run' st = run st) -> outcome run' Pr.
  Proof.
    intros run run' Pr [(L & G & H & E)|(R & H)] W; [left; exists L|right]; repeat split; auto; intros st; rewrite W; auto.
  Qed.
  Lemma outcome_bind : forall run1 run2 Pr1 Pr2 (Pr : list vl -> Prop), outcome run1 Pr1 -> outcome run2 Pr2 ->
    (forall L1 L2, Forall good L1 -> Forall good L2 -> Pr1 L1 -> Pr2 L2 -> Pr (L1 ++ L2)) ->
    outcome (fun st => do st' <- run1 st; run2 st') Pr.
  Proof.
    intros run1 run2 Pr1 Pr2 Pr H1 H2 W. destruct H1 as [(L1 & G1 & P1 & E1)|(R & E1)].
    - destruct H2 as [(L2 & G2 & P2 & E2)|(R & E2)].
      + left. exists (L1 ++ L2). split; [apply Forall_app; auto|]. split; auto. intros st. rewrite E1, fold_res_app.
        destruct (fold_res handle L1 st); cbn [bind]; auto.
      + right. split; auto. intros st. rewrite E1. destruct (fold_res handle L1 st) as [st'|e'] eqn:E; cbn [bind]; auto.
        exists e'. split; auto. right. eapply handle_raises; eauto.
    - right. split; auto. intros st. destruct (E1 st) as (e' & E & H). exists e'. rewrite E. auto.
  Qed.

  (** * Families of lists with a common prefix *)
  Definition lastof (v : vl) : selector := last (vl_sels v) tsel.
  Definition lasts (P : list vl) : list selector := map lastof P.
  Definition fam (alpha : list selector) (P : list vl) : Prop :=
    (forall v, In v P -> good v /\ vl_sels v = alpha ++ [lastof v]) /\ NoDup (lasts P).
  (** [N] are the extensions of [x] with the lists of [ys]. *)
  Definition kids (x : vl) (ys : list vl) (N : list vl) : Prop :=
    fam (vl_sels x) N /\ incl (lasts N) (lasts ys) /\
    forall l, In l (lasts ys) -> promising (vl_sels x ++ [l]) -> 1 <= coverage df (vl_sels x ++ [l]) -> In l (lasts N).
  (** What a search from the family [P] visits. *)
  Definition spec (alpha : list selector) (P : list vl) (L : list vl) : Prop :=
    (forall v, In v L -> exists Y, 2 <= length Y /\ NoDup Y /\ incl Y (lasts P) /\ vl_sels v = alpha ++ Y) /\
    ForallOrdPairs (fun v w : vl => ~ same_set (vl_sels v) (vl_sels w)) L /\
    (forall Y, 2 <= length Y -> NoDup Y -> incl Y (lasts P) -> promising (alpha ++ Y) -> 1 <= coverage df (alpha ++ Y) ->
       exists v, In v L /\ same_set (vl_sels v) (alpha ++ Y)).

  Lemma fam_perm : forall alpha P Q, Permutation P Q -> fam alpha P -> fam alpha Q.
  Proof.
    intros alpha P Q HP [H1 H2]. split.
    - intros v I. apply H1. eapply Permutation_in; [apply Permutation_sym|]; eauto.
    - eapply Permutation_NoDup; [|exact H2]. unfold lasts. apply Permutation_map; auto.
  Qed.
  Lemma kids_perm : forall x ys N N', Permutation N N' -> kids x ys N -> kids x ys N'.
  Proof.
    intros x ys N N' HP (F & I & C). assert (E : forall l, In l (lasts N) <-> In l (lasts N')).
    { intros l. split; apply Permutation_in; unfold lasts; [|apply Permutation_sym]; apply Permutation_map; auto. }
    split; [eapply fam_perm; eauto|]. split; [intros l Il; apply I, E; auto|]. intros l I1 I2 I3. apply E; auto.
  Qed.
  Lemma spec_perm : forall alpha P Q L, Permutation P Q -> spec alpha P L -> spec alpha Q L.
  Proof.
    intros alpha P Q L HP (A & B & C). assert (E : forall l, In l (lasts P) <-> In l (lasts Q)).
    { intros l. split; apply Permutation_in; unfold lasts; [|apply Permutation_sym]; apply Permutation_map; auto. }
    split; [|split; auto].
    - intros v I. destruct (A v I) as (Y & H1 & H2 & H3 & H4). exists Y. repeat split; auto. intros y Iy. apply E; auto.
    - intros Y H1 H2 H3. apply C; auto. intros y Iy. apply E; auto.
  Qed.
  Lemma spec_short : forall alpha P, length P <= 1 -> spec alpha P [].
  Proof.
    intros alpha P H. split; [intros v []|]. split; [constructor|]. intros Y H1 H2 H3. exfalso.
    pose proof (NoDup_incl_length H2 H3) as Q. unfold lasts in Q. rewrite map_length in Q. lia.
  Qed.
  Lemma FOP_app : forall {A} (R : A -> A -> Prop) l m, ForallOrdPairs R l -> ForallOrdPairs R m ->
    (forall x y, In x l -> In y m -> R x y) -> ForallOrdPairs R (l ++ m).
  Proof.
    intros A R l m F G H. induction F as [|a l Fa F IH]; cbn [app]; auto. constructor.
    - apply Forall_app. split; auto. apply Forall_forall. intros y Iy. apply H; auto. left; auto.
    - apply IH. intros x y Ix Iy. apply H; auto. right; auto.
  Qed.
  Lemma fam_distinct : forall alpha N, fam alpha N -> ForallOrdPairs (fun v w : vl => ~ same_set (vl_sels v) (vl_sels w)) N.
  Proof.
    intros alpha N [H1 H2]. unfold lasts in H2. induction N as [|v N IH]; constructor.
    - apply Forall_forall. intros w Iw SS. cbn [map] in H2. inversion H2 as [|? ? Nv ND]; subst. apply Nv.
      destruct (H1 v (or_introl eq_refl)) as ((_ & (_ & NDv & _) & _) & Ev). destruct (H1 w (or_intror Iw)) as ((_ & (_ & NDw & _) & _) & Ew).
      assert (I : In (lastof v) (vl_sels w)). { apply SS. rewrite Ev. apply in_or_app. right. left; auto. }
      rewrite Ew in I. apply in_app_or in I. destruct I as [I|[I|[]]].
      + exfalso. rewrite Ev in NDv. apply NoDup_remove_2 in NDv. apply NDv. rewrite app_nil_r. auto.
      + rewrite <- I. apply in_map; auto.
    - cbn [map] in H2. inversion H2; subst. apply IH; auto. intros w Iw. apply H1. right; auto.
  Qed.

  (** The visits of one element of the family and the rest. *)
  Lemma spec_cons : forall alpha x ys N N' L1 L2, fam alpha (x :: ys) -> kids x ys N -> Permutation N N' ->
    spec (vl_sels x) N L1 -> spec alpha ys L2 -> spec alpha (x :: ys) (N' ++ L1 ++ L2).
  Proof.
    intros alpha x ys N N' L1 L2 [HF ND] HK PN HS1 HS2.
    pose proof (kids_perm _ _ _ _ PN HK) as HK'. apply (spec_perm _ _ _ _ PN) in HS1. clear HK PN N. rename N' into N.
    destruct HK' as (FN & IN & CN). destruct HS1 as (A1 & B1 & C1). destruct HS2 as (A2 & B2 & C2).
    cbn [lasts map] in ND. fold (lasts ys) in ND. inversion ND as [|? ? Nx NDy]; subst. clear ND.
    destruct (HF x (or_introl eq_refl)) as [Gx Ex]. set (lx := lastof x) in *.
    assert (NDx : NoDup (alpha ++ [lx])) by (rewrite <- Ex; apply Gx).
    assert (Nalpha : ~ In lx alpha). { apply NoDup_remove_2 in NDx. rewrite app_nil_r in NDx. auto. }
    assert (NN : forall v, In v N -> exists Y, 2 <= length Y /\ NoDup Y /\ incl Y (lasts (x :: ys)) /\ vl_sels v = alpha ++ Y /\ In lx Y).
    { intros v Iv. destruct (proj1 FN v Iv) as [Gv Ev]. exists [lx; lastof v].
      assert (Iv' : In (lastof v) (lasts ys)) by (apply IN, in_map; auto).
      split; [auto|]. split; [constructor; [intros [E|[]]; rewrite E in Iv'; contradiction|constructor; [intros []|constructor]]|].
      split; [intros s [<-|[<-|[]]]; [left; auto|right; auto]|]. split; [|left; auto]. rewrite Ev, Ex, <- app_assoc. reflexivity. }
    assert (NL1 : forall v, In v L1 -> exists Y, 2 <= length Y /\ NoDup Y /\ incl Y (lasts (x :: ys)) /\ vl_sels v = alpha ++ Y /\ In lx Y).
    { intros v Iv. destruct (A1 v Iv) as (Y & H1 & H2 & H3 & H4). exists (lx :: Y). split; [cbn; lia|].
      split; [constructor; auto; intros I; apply Nx, IN, H3; auto|]. split; [intros s [<-|Is]; [left; auto|right; apply IN; auto]|].
      split; [|left; auto]. rewrite H4, Ex, <- app_assoc. reflexivity. }
    split; [|split].
    - intros v I. apply in_app_or in I. destruct I as [I|I]; [destruct (NN v I) as (Y & ?); exists Y; tauto|].
      apply in_app_or in I. destruct I as [I|I]; [destruct (NL1 v I) as (Y & ?); exists Y; tauto|].
      destruct (A2 v I) as (Y & H1 & H2 & H3 & H4). exists Y. repeat split; auto. intros s Is. right; auto.
    - assert (D2 : forall v w : vl, In lx (vl_sels v) -> In w L2 -> ~ same_set (vl_sels v) (vl_sels w)).
      { intros v w Hv Iw SS. destruct (A2 w Iw) as (Y & _ & _ & H3 & H4). apply SS in Hv. rewrite H4 in Hv. apply in_app_or in Hv.
        destruct Hv as [Hv|Hv]; [contradiction|]. apply Nx, H3; auto. }
      apply FOP_app; [eapply fam_distinct; eauto|apply FOP_app; auto|].
      + intros v w Iv Iw. apply D2; auto. destruct (NL1 v Iv) as (Y & _ & _ & _ & -> & I). apply in_or_app; auto.
      + intros v w Iv Iw. apply in_app_or in Iw. destruct Iw as [Iw|Iw].
        * intros SS. destruct (A1 w Iw) as (Y & H1 & H2 & H3 & H4). destruct (proj1 FN v Iv) as [(_ & (_ & NDv & _) & _) Ev].
          assert (IY : incl Y [lastof v]).
          { intros y Iy. assert (Q : In y (vl_sels v)) by (apply SS; rewrite H4; apply in_or_app; auto). rewrite Ev in Q. apply in_app_or in Q.
            destruct Q as [Q|Q]; auto. exfalso. pose proof (H3 y Iy) as Iy'. unfold lasts in Iy'. apply in_map_iff in Iy'. destruct Iy' as (u & <- & Iu).
            destruct (proj1 FN u Iu) as [(_ & (_ & NDu & _) & _) Eu]. rewrite Eu in NDu. apply NoDup_remove_2 in NDu. apply NDu. rewrite app_nil_r. auto. }
          pose proof (NoDup_incl_length H2 IY) as Q. cbn in Q. lia.
        * apply D2; auto. destruct (NN v Iv) as (Y & _ & _ & _ & -> & I). apply in_or_app; auto.
    - intros Y H1 H2 H3 HP HC. destruct (in_dec selector_eq_dec lx Y) as [I|I].
      + destruct (in_split _ _ I) as (Y1 & Y2 & EY). set (Z := Y1 ++ Y2).
        assert (PY : Permutation Y (lx :: Z)) by (rewrite EY; apply Permutation_sym, Permutation_middle).
        pose proof (Permutation_NoDup PY H2) as NDZ. destruct (proj1 (NoDup_cons_iff lx Z) NDZ) as [NxZ NZ]. pose proof (Permutation_length PY) as LY. cbn [length] in LY.
        assert (IZ : incl Z (lasts ys)).
        { intros z Iz. destruct (H3 z) as [E|E]; auto; [|contradiction (NxZ); rewrite <- E in Iz; exact Iz].
          eapply Permutation_in; [apply Permutation_sym; eauto|right; auto]. }
        assert (SZ : same_set (alpha ++ Y) (vl_sels x ++ Z)).
        { intros s. rewrite Ex, EY, <- app_assoc. cbn [app]. unfold Z. rewrite !in_app_iff. cbn [In]. rewrite !in_app_iff. cbn [In]. tauto. }
        assert (KZ : incl Z (lasts N)).
        { intros z Iz. apply CN; auto.
          - eapply promising_incl; [|exact HP]. intros s Is. apply SZ. apply in_app_or in Is. apply in_or_app. destruct Is as [Is|[<-|[]]]; auto.
          - etransitivity; [exact HC|]. apply coverage_incl. intros s Is. apply SZ. apply in_app_or in Is. apply in_or_app. destruct Is as [Is|[<-|[]]]; auto. }
        assert (HP' : promising (vl_sels x ++ Z)) by (eapply promising_incl; [|exact HP]; intros s Is; apply SZ; auto).
        assert (HC' : 1 <= coverage df (vl_sels x ++ Z)) by (rewrite <- (coverage_same _ _ SZ); auto).
        destruct Z as [|z [|z' Z']] eqn:EZ; [exfalso; cbn [length] in LY; lia| |].
        * assert (Iz : In z (lasts N)) by (apply KZ; left; auto). unfold lasts in Iz. apply in_map_iff in Iz. destruct Iz as (v & Ev & Iv).
          exists v. split; [apply in_or_app; auto|]. destruct (proj1 FN v Iv) as [_ Sv]. rewrite Sv, Ev. intros s. symmetry. apply SZ.
        * destruct (C1 (z :: z' :: Z')) as (v & Iv & SS); auto; [cbn; lia|].
          exists v. split; [apply in_or_app; right; apply in_or_app; auto|]. intros s. rewrite (SS s). symmetry. apply SZ.
      + destruct (C2 Y) as (v & Iv & SS); auto.
        * intros y Iy. destruct (H3 y Iy) as [E|E]; auto. exfalso. apply I. fold lx in E. rewrite E. auto.
        * exists v. split; auto. apply in_or_app; right; apply in_or_app; auto.
  Qed.

  (** * The search *)
  Notation matrix := (list (selector * list (selector * vl))).
  (** The matrix answers the pairs that matter. *)
  Definition matrix_ok (Q : list selector) (M : matrix) : Prop :=
    forall a b, In a Q -> In b Q -> a <> b -> promising [a; b] -> 1 <= coverage df [a; b] ->
    exists v, query_matrix M a b = Some v /\ vc_oe_reaches c (vl_quality v) = true.

  Lemma covered_join : forall alpha x y, fam alpha (x :: [y]) -> 1 <= coverage df (vl_sels x ++ [lastof y]) -> covered (vl_sels x ++ [lastof y]).
  Proof.
    intros alpha x y [HF ND] Cv. destruct (HF x (or_introl eq_refl)) as [(_ & (NEx & NDx & UX & _) & _) Ex].
    destruct (HF y (or_intror (or_introl eq_refl))) as [(_ & (_ & NDy & UY & _) & _) Ey].
    cbn [lasts map] in ND. inversion ND as [|? ? Nx _]; subst.
    split; [destruct (vl_sels x); discriminate|]. split; [|split; auto].
    - apply (Permutation_NoDup (Permutation_cons_append (vl_sels x) (lastof y))). constructor; auto.
      rewrite Ex. intros I. apply in_app_or in I. destruct I as [I|[I|[]]].
      + rewrite Ey in NDy. apply NoDup_remove_2 in NDy. apply NDy. rewrite app_nil_r. auto.
      + apply Nx. left. auto.
    - intros s I. apply in_app_or in I. destruct I as [I|[<-|[]]]; auto. apply UY. rewrite Ey. apply in_or_app. right. left; auto.
  Qed.
  (** One join: nothing, a good list, or an error of the estimate. *)
  Lemma step_out : forall alpha x y, fam alpha [x; y] ->
    (vls_join qf x y true = Ok None /\ coverage df (vl_sels x ++ [lastof y]) = 0) \/
    (exists e, vls_join qf x y true = Err e /\ raises estimate e) \/
    (exists v, vls_join qf x y true = Ok (Some v) /\ vl_sels v = vl_sels x ++ [lastof y] /\
       if vc_oe_reaches c (vl_quality v) then good v else ~ promising (vl_sels x ++ [lastof y])).
  Proof.
    intros alpha x y HF. destruct (proj1 HF x (or_introl eq_refl)) as [Gx Ex]. destruct (proj1 HF y (or_intror (or_introl eq_refl))) as [Gy Ey].
    destruct (join_out x y alpha (lastof y)) as [(C0 & J)|[(C0 & e & Ee & J)|(C0 & v & J & Bv & Sv & Ev)]];
      [apply Gx|apply Gy|exact Ey|rewrite Ex; intros s Is; apply in_or_app; auto| | |].
    - left; auto.
    - right; left. exists e. split; auto. exists (vl_sels x ++ [lastof y]). split; auto. eapply covered_join; eauto.
    - right; right. exists v. split; auto. split; auto. destruct (vc_oe_reaches c (vl_quality v)) eqn:Rv.
      + split; auto. rewrite Sv. split; [eapply covered_join; eauto|auto].
      + intros HP. apply promising_self with (o := vl_quality v) in HP; [congruence|destruct (vl_sels x); discriminate|auto].
  Qed.
  Lemma lastof_elem : forall v beta, vl_sels v = beta ++ [lastof v] -> last_elem (vl_sels v) = Ok (lastof v).
  Proof. intros v beta E. rewrite E at 1. apply last_elem_app. Qed.
  Lemma fam_pair : forall alpha x y ys, fam alpha (x :: y :: ys) -> fam alpha [x; y].
  Proof.
    intros alpha x y ys [HF ND]. split.
    - intros v I. apply HF. cbn in I |- *. tauto.
    - cbn [lasts map] in ND |- *. inversion ND as [|? ? N1 N2]; subst. inversion N2; subst. constructor; [|constructor; [intros []|constructor]].
      intros [I|[]]. apply N1. left; auto.
  Qed.
  Lemma fam_drop : forall alpha x y ys, fam alpha (x :: y :: ys) -> fam alpha (x :: ys).
  Proof.
    intros alpha x y ys [HF ND]. split.
    - intros v I. apply HF. cbn in I |- *. tauto.
    - cbn [lasts map] in ND |- *. inversion ND as [|? ? N1 N2]; subst. inversion N2; subst. constructor; auto. intros I. apply N1. right; auto.
  Qed.
  Lemma kids_nil : forall x, kids x [] [].
  Proof. intros x. split; [split; [intros v []|constructor]|]. split; [intros l []|intros l []]. Qed.
  Lemma kids_skip : forall x y ys N, ~ (promising (vl_sels x ++ [lastof y]) /\ 1 <= coverage df (vl_sels x ++ [lastof y])) ->
    kids x ys N -> kids x (y :: ys) N.
  Proof.
    intros x y ys N H (F & I & C). split; auto. split; [intros l Il; right; auto|].
    intros l [<-|Il] HP HC; [exfalso; apply H; auto|auto].
  Qed.
  Lemma kids_cons : forall alpha x y ys N v, fam alpha (x :: y :: ys) -> good v -> vl_sels v = vl_sels x ++ [lastof y] ->
    kids x ys N -> kids x (y :: ys) (v :: N).
  Proof.
    intros alpha x y ys N v [_ ND] Gv Sv (F & I & C).
    assert (Lv : lastof v = lastof y) by (unfold lastof at 1; rewrite Sv; apply last_last).
    cbn [lasts map] in ND. inversion ND as [|? ? _ ND']; subst. inversion ND' as [|? ? Ny _]; subst.
    split; [split|split].
    - intros w [<-|Iw]; [|apply F; auto]. split; auto. rewrite Lv. auto.
    - cbn [lasts map]. constructor; [|apply F]. rewrite Lv. intros J. apply Ny. apply I. auto.
    - intros l [<-|Il]; [left; auto|right; auto].
    - intros l [<-|Il] HP HC; [left; auto|right; auto].
  Qed.

  Lemma extend_out : forall Q M alpha x, matrix_ok Q M -> forall ys, fam alpha (x :: ys) -> incl (lasts (x :: ys)) Q ->
    (exists N, kids x ys N /\ forall W st, fold_res (extend with_sets c M tsel TP FP x (lastof x)) ys (W, st) =
       do st' <- fold_res handle N st; Ok (W ++ N, st')) \/
    ((exists e, raises estimate e) /\ forall W st, exists e, fold_res (extend with_sets c M tsel TP FP x (lastof x)) ys (W, st) = Err e /\ (raises estimate e \/ raises value e)).
  Proof.
    intros Q M alpha x HM. induction ys as [|y ys IH]; intros HF HQ.
    - left. exists []. split; [apply kids_nil|]. intros W st. cbn [fold_res bind]. rewrite app_nil_r. reflexivity.
    - specialize (IH (fam_drop _ _ _ _ HF)). pose proof (fam_pair _ _ _ _ HF) as HFp.
      destruct (proj1 HFp x (or_introl eq_refl)) as [Gx Ex]. destruct (proj1 HFp y (or_intror (or_introl eq_refl))) as [Gy Ey].
      assert (EY : last_elem (vl_sels y) = Ok (lastof y)) by (eapply lastof_elem; eauto).
      (* one step *)
      assert (Step : (~ (promising (vl_sels x ++ [lastof y]) /\ 1 <= coverage df (vl_sels x ++ [lastof y])) /\
                      forall W st, extend with_sets c M tsel TP FP x (lastof x) (W, st) y = Ok (W, st)) \/
                     (exists e, raises estimate e /\ forall W st, extend with_sets c M tsel TP FP x (lastof x) (W, st) y = Err e) \/
                     (exists v, good v /\ vl_sels v = vl_sels x ++ [lastof y] /\
                      forall W st, extend with_sets c M tsel TP FP x (lastof x) (W, st) y = do st' <- handle st v; Ok (W ++ [v], st'))).
      { unfold extend. rewrite EY. cbn [bind].
        assert (PQ : promising (vl_sels x ++ [lastof y]) -> 1 <= coverage df (vl_sels x ++ [lastof y]) ->
          exists m, query_matrix M (lastof x) (lastof y) = Some m /\ vc_oe_reaches c (vl_quality m) = true).
        { intros HP HC. assert (Inc : incl [lastof x; lastof y] (vl_sels x ++ [lastof y])).
          { intros s [<-|[<-|[]]]; apply in_or_app; [left; rewrite Ex; apply in_or_app; right|right]; left; auto. }
          apply HM.
          - apply HQ. left; auto.
          - apply HQ. right; left; auto.
          - destruct HF as [_ ND]. cbn [lasts map] in ND. inversion ND as [|? ? Nx _]; subst. intros E. apply Nx. left; auto.
          - eapply promising_incl; eauto.
          - etransitivity; [exact HC|]. apply coverage_incl; auto. }
        destruct (query_matrix M (lastof x) (lastof y)) as [m|] eqn:EQ.
        2:{ left. split; [intros [HP HC]; destruct (PQ HP HC) as (m' & E1 & E2); congruence|auto]. }
        destruct (vc_oe_reaches c (vl_quality m)) eqn:Em.
        2:{ left. split; [intros [HP HC]; destruct (PQ HP HC) as (m' & E1 & E2); congruence|auto]. }
        fold qf. cbn [vi_join with_sets]. destruct (step_out alpha x y HFp) as [(J & C0)|[(e & J & R)|(v & J & Sv & Gv)]]; rewrite J; cbn [bind].
        - left. split; [lia|auto].
        - right; left. exists e. auto.
        - destruct (vc_oe_reaches c (vl_quality v)); [right; right; exists v; auto|left; split; [tauto|auto]]. }
      assert (HQ' : incl (lasts (x :: ys)) Q) by (intros l [<-|Il]; apply HQ; [left|right; right]; auto).
      destruct Step as [(NP & ES)|[(e & R & ES)|(v & Gv & Sv & ES)]].
      + destruct (IH HQ') as [(N & K & EN)|(R & EN)].
        * left. exists N. split; [apply kids_skip; auto|]. intros W st. cbn [fold_res]. rewrite ES. apply EN.
        * right. split; auto. intros W st. cbn [fold_res]. rewrite ES. apply EN.
      + right. split; [eauto|]. intros W st. exists e. cbn [fold_res]. rewrite ES. auto.
      + destruct (IH HQ') as [(N & K & EN)|(R & EN)].
        * left. exists (v :: N). split; [eapply kids_cons; eauto|]. intros W st. cbn [fold_res]. rewrite ES.
          destruct (handle st v) as [st'|e]; cbn [bind]; auto. rewrite EN. destruct (fold_res handle N st'); cbn [bind]; auto.
          rewrite <- app_assoc. reflexivity.
        * right. split; auto. intros W st. cbn [fold_res]. rewrite ES. destruct (handle_value st v Gv) as [(q & st' & E1 & E2)|(e & E1 & E2)]; rewrite E2; cbn [bind].
          -- apply EN.
          -- exists e. split; auto. right. exists (vl_sels v). split; auto. apply Gv.
  Qed.
  Lemma lasts_perm : forall P Q l, Permutation P Q -> (In l (lasts P) <-> In l (lasts Q)).
  Proof. intros P Q l H. unfold lasts. split; apply Permutation_in; [|apply Permutation_sym]; apply Permutation_map; auto. Qed.
  (** The search from a family. *)
  Lemma search_out : forall Q M, matrix_ok Q M -> forall fuel alpha P, length P <= fuel -> fam alpha P -> incl (lasts P) Q ->
    outcome (fun st => search with_sets c M tsel TP FP (S fuel) P st) (spec alpha P).
  Proof.
    intros Q M HM. induction fuel as [|f IH]; intros alpha P HL HF HQ.
    { destruct P; [|cbn in HL; lia]. apply (outcome_visit []); [constructor|apply spec_short; auto]. }
    revert alpha HL HF HQ. induction P as [|x P IHP]; intros alpha HL HF HQ.
    { apply (outcome_visit []); [constructor|apply spec_short; auto]. }
    destruct P as [|y ys]; [apply (outcome_visit []); [constructor|apply spec_short; auto]|].
    assert (HF' : fam alpha (y :: ys)).
    { destruct HF as [H1 H2]. split; [intros v I; apply H1; right; auto|]. cbn [lasts map] in H2. inversion H2; auto. }
    assert (HQ' : incl (lasts (y :: ys)) Q) by (intros l Il; apply HQ; right; auto).
    specialize (IHP alpha ltac:(cbn in *; lia) HF' HQ').
    destruct (proj1 HF x (or_introl eq_refl)) as [Gx Ex].
    set (ys' := y :: ys) in *.
    assert (EL : forall st, search with_sets c M tsel TP FP (S (S f)) (x :: ys') st =
      do Wst <- fold_res (extend with_sets c M tsel TP FP x (lastof x)) ys' ([], st);
      let '(W, st) := Wst in
      do st <- match W with [] => Ok st | _ :: _ => search with_sets c M tsel TP FP (S f) (vl_sort c (vc_sort_other c) W) st end;
      search with_sets c M tsel TP FP (S (S f)) ys' st).
    { intros st. unfold ys'. cbn [search]. rewrite (lastof_elem x alpha Ex). cbn [bind]. reflexivity. }
    destruct (extend_out Q M alpha x HM ys' HF HQ) as [(N & K & EN)|(R & EN)].
    - assert (ON : outcome (fun st => match N with [] => Ok st | _ :: _ => search with_sets c M tsel TP FP (S f) (vl_sort c (vc_sort_other c) N) st end) (spec (vl_sels x) N)).
      { destruct N as [|n N']; [apply (outcome_visit []); [constructor|apply spec_short; auto]|].
        eapply outcome_weaken; [apply IH|].
        - rewrite <- (Permutation_length (vl_sort_perm c (vc_sort_other c) (n :: N'))). destruct K as ([_ ND] & I & _).
          pose proof (NoDup_incl_length ND I) as LQ. unfold lasts in LQ. rewrite !map_length in LQ. cbn in HL, LQ |- *. lia.
        - eapply fam_perm; [apply vl_sort_perm|apply K].
        - intros l Il. apply HQ'. apply K. eapply lasts_perm; [apply vl_sort_perm|exact Il].
        - intros L _ HS. eapply spec_perm; [apply Permutation_sym, vl_sort_perm|exact HS]. }
      eapply outcome_ext; [|intros st; rewrite EL, EN; reflexivity].
      assert (GN : Forall good N) by (apply Forall_forall; intros v Iv; apply (proj1 (proj1 K) v Iv)).
      eapply outcome_ext.
      + eapply (outcome_bind (fun st => fold_res handle N st) _ (fun L => L = N) (fun L => exists L1 L2, L = L1 ++ L2 /\ spec (vl_sels x) N L1 /\ spec alpha ys' L2)).
        * apply outcome_visit; auto.
        * eapply outcome_bind; [exact ON|exact IHP|]. intros L1 L2 _ _ S1 S2. exists L1, L2. auto.
        * intros L1 L2 _ _ -> (L3 & L4 & -> & S1 & S2). eapply (spec_cons alpha x ys' N N); auto.
      + intros st. cbn beta. destruct (fold_res handle N st) as [st'|e]; cbn [bind app]; reflexivity.
    - right. split; auto. intros st. rewrite EL. destruct (EN [] st) as (e & -> & H). exists e. auto.
  Qed.

  (** * The matrix *)
  Lemma nominal_U : forall s, U df tcol s -> nominal s.
  Proof. intros s H. eapply U_nominal; eauto. Qed.
  Lemma assoc_none : forall {B} k (l : list (selector * B)), nominal k -> (forall p, In p l -> nominal (fst p) /\ fst p <> k) -> sel_assoc k l = None.
  Proof.
    intros B k l Nk. induction l as [|[a b] l IH]; intros H; cbn [sel_assoc]; auto.
    destruct (H (a, b) (or_introl eq_refl)) as [Na Ne]. cbn in Na, Ne. destruct (sel_eq a k) eqn:E.
    - apply sel_eq_nominal in E; auto. contradiction.
    - apply IH. intros p Ip. apply H. right; auto.
  Qed.
  Lemma assoc_app : forall {B} k (l m : list (selector * B)), sel_assoc k l = None -> sel_assoc k (l ++ m) = sel_assoc k m.
  Proof. intros B k l m. induction l as [|[a b] l IH]; cbn [sel_assoc app]; auto. destruct (sel_eq a k); [discriminate|auto]. Qed.
  Lemma assoc_self : forall {B} k (b : B) l, sel_assoc k ((k, b) :: l) = Some b.
  Proof. intros. cbn [sel_assoc]. rewrite sel_eq_refl. reflexivity. Qed.
  Lemma upd_app : forall {B} k f (l m : list (selector * B)), sel_assoc k l = None -> sel_assoc_upd k f (l ++ m) = l ++ sel_assoc_upd k f m.
  Proof. intros B k f l m. induction l as [|[a b] l IH]; cbn [sel_assoc sel_assoc_upd app]; auto. destruct (sel_eq a k); [discriminate|]. intros H. rewrite IH; auto. Qed.

  Definition row_of (N : list vl) : list (selector * vl) := map (fun v => (lastof v, v)) N.
  Definition entry (l : selector) (N : list vl) : matrix := match N with [] => [] | _ :: _ => [(l, row_of N)] end.
  Inductive rows : list vl -> matrix -> Prop :=
  | rows_nil : rows [] []
  | rows_cons : forall x ys N R, kids x ys N -> rows ys R -> rows (x :: ys) (entry (lastof x) N ++ R).

  Lemma entry_keys : forall l N p, In p (entry l N) -> fst p = l.
  Proof. intros l [|v N] p I; [destruct I|]. destruct I as [<-|[]]. reflexivity. Qed.
  Lemma matrix_set_entry : forall M0 lx N0 v, nominal lx -> (forall p, In p M0 -> nominal (fst p) /\ fst p <> lx) ->
    (forall w, In w N0 -> nominal (lastof w) /\ lastof w <> lastof v) -> nominal (lastof v) ->
    matrix_set (M0 ++ entry lx N0) lx (lastof v) v = M0 ++ entry lx (N0 ++ [v]).
  Proof.
    intros M0 lx N0 v Nl HM HN Nv. unfold matrix_set. assert (E0 : sel_assoc lx M0 = None) by (apply assoc_none; auto).
    rewrite (assoc_app lx M0) by auto. destruct N0 as [|w N0].
    - cbn [entry sel_assoc app row_of map]. rewrite app_nil_r. reflexivity.
    - cbn [entry app]. rewrite assoc_self, upd_app by auto. cbn [sel_assoc_upd]. rewrite sel_eq_refl. do 3 f_equal.
      unfold VLSDModel.dict_set. rewrite assoc_none; auto.
      + change (w :: N0 ++ [v]) with ((w :: N0) ++ [v]). unfold row_of. rewrite map_app. reflexivity.
      + intros p Ip. apply in_map_iff in Ip. destruct Ip as (u & <- & Iu). cbn [fst]. apply HN; auto.
  Qed.
  Lemma fam_nominal : forall alpha P v, fam alpha P -> In v P -> nominal (lastof v).
  Proof.
    intros alpha P v HF I. destruct (proj1 HF v I) as [(_ & (_ & _ & HU & _) & _) E]. apply nominal_U, HU. rewrite E. apply in_or_app. right; left; auto.
  Qed.
  Lemma row_out : forall alpha x M0, (forall p, In p M0 -> nominal (fst p) /\ fst p <> lastof x) ->
    forall ys N0, fam alpha (x :: ys) -> (forall w, In w N0 -> nominal (lastof w) /\ ~ In (lastof w) (lasts ys)) ->
    (exists N, kids x ys N /\ fold_res (matrix_step with_sets c TP FP x) ys (M0 ++ entry (lastof x) N0) = Ok (M0 ++ entry (lastof x) (N0 ++ N))) \/
    (exists e, raises estimate e /\ fold_res (matrix_step with_sets c TP FP x) ys (M0 ++ entry (lastof x) N0) = Err e).
  Proof.
    intros alpha x M0 HM. induction ys as [|y ys IH]; intros N0 HF HN.
    - left. exists []. split; [apply kids_nil|]. rewrite app_nil_r. reflexivity.
    - pose proof (fam_pair _ _ _ _ HF) as HFp. pose proof (fam_drop _ _ _ _ HF) as HF'.
      destruct (proj1 HFp x (or_introl eq_refl)) as [Gx Ex]. destruct (proj1 HFp y (or_intror (or_introl eq_refl))) as [Gy Ey].
      assert (HN' : forall w, In w N0 -> nominal (lastof w) /\ ~ In (lastof w) (lasts ys)).
      { intros w Iw. destruct (HN w Iw) as [H1 H2]. split; auto. intros J. apply H2. right; auto. }
      cbn [fold_res]. unfold matrix_step at 1 3. rewrite (lastof_elem x alpha Ex), (lastof_elem y alpha Ey). cbn [bind]. fold qf. cbn [vi_join with_sets].
      destruct (step_out alpha x y HFp) as [(J & C0)|[(e & J & R)|(v & J & Sv & Gv)]]; rewrite J; cbn [bind].
      + destruct (IH N0 HF' HN') as [(N & K & E)|H]; [left|right; auto]. exists N. split; auto. apply kids_skip; auto. lia.
      + right. exists e. auto.
      + destruct (vc_oe_reaches c (vl_quality v)) eqn:Rv.
        * assert (Lv : lastof v = lastof y) by (unfold lastof at 1; rewrite Sv; apply last_last).
          assert (Nv : nominal (lastof v)) by (rewrite Lv; apply (fam_nominal alpha [x; y]); [auto|right; left; auto]).
          rewrite <- Lv, matrix_set_entry; auto.
          2: eapply fam_nominal; [exact HFp|left; auto].
          2:{ intros w Iw. destruct (HN w Iw) as [H1 H2]. split; auto. intros E. apply H2. left. congruence. }
          destruct (IH (N0 ++ [v]) HF') as [(N & K & E)|H]; [| |right; auto].
          -- intros w Iw. apply in_app_or in Iw. destruct Iw as [Iw|[<-|[]]]; [apply HN'; auto|]. split; auto. rewrite Lv.
             destruct HF as [_ ND]. cbn [lasts map] in ND. inversion ND as [|? ? _ ND']; subst. inversion ND'; auto.
          -- left. exists (v :: N). split; [eapply kids_cons; eauto|]. rewrite E. rewrite <- app_assoc. reflexivity.
        * destruct (IH N0 HF' HN') as [(N & K & E)|H]; [left|right; auto]. exists N. split; auto. apply kids_skip; auto. tauto.
  Qed.
  Lemma matrix_out : forall s1 M0, fam [] s1 -> (forall p, In p M0 -> nominal (fst p) /\ ~ In (fst p) (lasts s1)) ->
    (exists R, rows s1 R /\ build_matrix with_sets c TP FP s1 M0 = Ok (M0 ++ R)) \/
    (exists e, raises estimate e /\ build_matrix with_sets c TP FP s1 M0 = Err e).
  Proof.
    induction s1 as [|x ys IH]; intros M0 HF HM; cbn [build_matrix].
    - left. exists []. split; [constructor|]. rewrite app_nil_r. reflexivity.
    - destruct (row_out [] x M0) with (ys := ys) (N0 := @nil vl) as [(N & K & E)|(e & R & E)]; auto.
      + intros p Ip. destruct (HM p Ip) as [H1 H2]. split; auto. intros E. apply H2. left; auto.
      + intros w [].
      + cbn [entry] in E. rewrite app_nil_r in E. rewrite E. cbn [bind app].
        assert (HF' : fam [] ys).
        { destruct HF as [H1 H2]. split; [intros v I; apply H1; right; auto|]. cbn [lasts map] in H2. inversion H2; auto. }
        assert (Nx : ~ In (lastof x) (lasts ys)) by (destruct HF as [_ H2]; cbn [lasts map] in H2; inversion H2; auto).
        destruct (IH (M0 ++ entry (lastof x) N) HF') as [(R & HR & E')|(e & R & E')].
        * intros p Ip. apply in_app_or in Ip. destruct Ip as [Ip|Ip].
          -- destruct (HM p Ip) as [H1 H2]. split; auto. intros J. apply H2. right; auto.
          -- rewrite (entry_keys _ _ _ Ip). split; auto. eapply fam_nominal; [exact HF|left; auto].
        * left. exists (entry (lastof x) N ++ R). split; [constructor; auto|]. rewrite E', <- app_assoc. reflexivity.
        * right. exists e. auto.
      + cbn [entry] in E. rewrite app_nil_r in E. right. exists e. rewrite E. auto.
  Qed.
  Lemma rows_keys : forall s1 R p, rows s1 R -> In p R -> In (fst p) (lasts s1).
  Proof.
    intros s1 R p H. induction H as [|x ys N R K H IH]; intros I; [destruct I|]. apply in_app_or in I. destruct I as [I|I].
    - rewrite (entry_keys _ _ _ I). left; auto.
    - right; auto.
  Qed.
  Lemma rows_at : forall s1 R, fam [] s1 -> rows s1 R -> forall pre x post, s1 = pre ++ x :: post ->
    exists N, kids x post N /\ sel_assoc (lastof x) R = match N with [] => None | _ :: _ => Some (row_of N) end.
  Proof.
    intros s1 R HF H. induction H as [|z ys N R K H IH]; intros pre x post E; [destruct pre; discriminate|].
    assert (HF' : fam [] ys).
    { destruct HF as [H1 H2]. split; [intros v I; apply H1; right; auto|]. cbn [lasts map] in H2. inversion H2; auto. }
    assert (Nz : ~ In (lastof z) (lasts ys)) by (destruct HF as [_ H2]; cbn [lasts map] in H2; inversion H2; auto).
    destruct pre as [|z' pre]; cbn [app] in E; injection E as -> ->.
    - exists N. split; auto. destruct N as [|n N].
      + cbn [entry app]. apply assoc_none; [eapply fam_nominal; [exact HF|left; auto]|].
        intros p Ip. pose proof (rows_keys _ _ _ H Ip) as J. split; [|intros E; apply Nz; rewrite <- E; auto].
        unfold lasts in J. apply in_map_iff in J. destruct J as (u & <- & Iu). eapply fam_nominal; [exact HF'|auto].
      + cbn [entry app]. apply assoc_self.
    - destruct (IH HF' pre x post eq_refl) as (N' & K' & E'). exists N'. split; auto. rewrite assoc_app; auto.
      assert (Ix : In x (pre ++ x :: post)) by (apply in_or_app; right; left; auto).
      apply assoc_none; [eapply fam_nominal; [exact HF'|auto]|]. intros p Ip. rewrite (entry_keys _ _ _ Ip).
      split; [eapply fam_nominal; [exact HF|left; auto]|]. intros E. apply Nz. rewrite E. apply in_map; auto.
  Qed.
  Lemma row_assoc : forall alpha N b, fam alpha N -> nominal b ->
    (forall v, sel_assoc b (row_of N) = Some v -> In v N /\ lastof v = b) /\ (In b (lasts N) -> exists v, sel_assoc b (row_of N) = Some v).
  Proof.
    intros alpha N b HF Nb. induction N as [|n N IH]; cbn [row_of map sel_assoc lasts]; [split; [discriminate|intros []]|].
    assert (HF' : fam alpha N).
    { destruct HF as [H1 H2]. split; [intros v I; apply H1; right; auto|]. cbn [lasts map] in H2. inversion H2; auto. }
    destruct (IH HF') as [I1 I2]. assert (Nn : nominal (lastof n)) by (eapply fam_nominal; [exact HF|left; auto]).
    destruct (sel_eq (lastof n) b) eqn:E.
    - apply sel_eq_nominal in E; auto. split; [intros v Ev; injection Ev as <-; split; auto; left; auto|intros _; eauto].
    - split.
      + intros v Ev. destruct (I1 v Ev). split; auto. right; auto.
      + intros [J|J]; [|auto]. exfalso. rewrite J, sel_eq_refl in E. discriminate.
  Qed.
  Lemma singleton_sels : forall v P, fam [] P -> In v P -> vl_sels v = [lastof v].
  Proof. intros v P HF I. apply (proj1 HF v I). Qed.
  Lemma rows_matrix_ok : forall s1 R, fam [] s1 -> rows s1 R -> matrix_ok (lasts s1) R.
  Proof.
    intros s1 R HF HR.
    assert (At : forall a b v, In a (lasts s1) -> nominal b -> matrix_at R a b = Some v -> vc_oe_reaches c (vl_quality v) = true).
    { intros a b v Ia Nb E. unfold lasts in Ia. apply in_map_iff in Ia. destruct Ia as (x & <- & Ix). destruct (in_split _ _ Ix) as (pre & post & Es).
      destruct (rows_at s1 R HF HR pre x post Es) as (N & K & EA). unfold matrix_at in E. rewrite EA in E. destruct N as [|n N]; [discriminate|].
      apply (row_assoc (vl_sels x) (n :: N) b (proj1 K) Nb) in E. destruct E as [I _]. apply (proj1 (proj1 K) v I). }
    assert (Before : forall a b pre x mid y post, s1 = pre ++ x :: mid ++ y :: post -> lastof x = a -> lastof y = b ->
              promising [a; b] -> 1 <= coverage df [a; b] -> exists v, matrix_at R a b = Some v).
    { intros a b pre x mid y post Es <- <- HP HC. destruct (rows_at s1 R HF HR pre x (mid ++ y :: post) Es) as (N & K & EA).
      assert (Ix : In x s1) by (rewrite Es; apply in_or_app; right; left; auto).
      assert (Iy : In y s1) by (rewrite Es; apply in_or_app; right; right; apply in_or_app; right; left; auto).
      assert (IN : In (lastof y) (lasts N)).
      { destruct K as (_ & _ & C). rewrite (singleton_sels x s1 HF Ix) in C. apply C; auto. apply in_map, in_or_app. right; left; auto. }
      unfold matrix_at. rewrite EA. destruct N as [|n N]; [destruct IN|]. apply (row_assoc (vl_sels x) (n :: N)); auto; [apply K|].
      eapply fam_nominal; eauto. }
    intros a b Ia Ib Nab HP HC. pose proof Ia as Ia0. pose proof Ib as Ib0. unfold lasts in Ia, Ib. apply in_map_iff in Ia, Ib.
    destruct Ia as (x & Ex & Ix), Ib as (y & Ey & Iy).
    assert (Na : nominal a) by (rewrite <- Ex; eapply fam_nominal; eauto). assert (Nb : nominal b) by (rewrite <- Ey; eapply fam_nominal; eauto).
    unfold query_matrix. destruct (matrix_at R a b) as [v|] eqn:E; [exists v; split; auto; exact (At a b v Ia0 Nb E)|].
    destruct (in_split _ _ Ix) as (pre & post & Es). rewrite Es in Iy. apply in_app_or in Iy. destruct Iy as [Iy|[Iy|Iy]].
    - destruct (in_split _ _ Iy) as (p1 & p2 & E1). destruct (Before b a p1 y p2 x post) as (u & Eu); auto.
      + rewrite Es, E1, <- app_assoc. reflexivity.
      + eapply promising_incl; [|exact HP]. intros s [<-|[<-|[]]]; [right; left|left]; auto.
      + rewrite (coverage_same [b; a] [a; b]); auto. intros s; cbn; tauto.
      + exists u. split; auto. exact (At b a u Ib0 Na Eu).
    - exfalso. congruence.
    - destruct (in_split _ _ Iy) as (p1 & p2 & E1). destruct (Before a b pre x p1 y p2) as (u & Eu); auto; [rewrite Es, E1; reflexivity|congruence].
  Qed.
  (** * The loop over the lists of size 1 *)
  Lemma top_out : forall s1 R, fam [] s1 -> rows s1 R -> forall suf pre, s1 = pre ++ suf ->
    outcome (fun st => fold_res (search_from with_sets c R tsel TP FP) (removelast suf) st) (spec [] suf).
  Proof.
    intros s1 R HF HR. pose proof (rows_matrix_ok s1 R HF HR) as HM. induction suf as [|x suf IH]; intros pre Es.
    { apply (outcome_visit []); [constructor|apply spec_short; auto]. }
    destruct suf as [|y ys]; [apply (outcome_visit []); [constructor|apply spec_short; auto]|].
    specialize (IH (pre ++ [x]) ltac:(rewrite <- app_assoc; exact Es)).
    destruct (rows_at s1 R HF HR pre x (y :: ys) Es) as (N & K & EA).
    assert (HFx : fam [] (x :: y :: ys)).
    { destruct HF as [H1 H2]. rewrite Es in H1, H2. split; [intros v I; apply H1, in_or_app; auto|]. unfold lasts in H2 |- *. rewrite map_app in H2.
      clear -H2. induction (map lastof pre) as [|p l IH]; cbn [app] in H2; auto. inversion H2; auto. }
    destruct (proj1 HFx x (or_introl eq_refl)) as [Gx Ex].
    assert (IQ : incl (lasts (y :: ys)) (lasts s1)).
    { intros l Il. rewrite Es. unfold lasts in *. rewrite map_app. apply in_or_app. right; right; auto. }
    change (removelast (x :: y :: ys)) with (x :: removelast (y :: ys)). cbn [fold_res].
    set (P := vl_sort c (vc_sort_other c) N). pose proof (vl_sort_perm c (vc_sort_other c) N : Permutation N P) as PP.
    assert (OX : outcome (fun st => search_from with_sets c R tsel TP FP st x) (fun L => exists L1, L = P ++ L1 /\ spec (vl_sels x) N L1)).
    { destruct N as [|n N].
      - eapply outcome_ext; [apply (outcome_visit []); [constructor|]|].
        + exists []. split; [|apply spec_short; auto]. apply Permutation_nil in PP. rewrite PP. reflexivity.
        + intros st. unfold search_from. rewrite (lastof_elem x [] Ex). cbn [bind]. rewrite EA. reflexivity.
      - eapply outcome_ext.
        + eapply (outcome_bind (fun st => fold_res handle P st) (fun st => search with_sets c R tsel TP FP (S (length P)) P st) (fun L => L = P) (spec (vl_sels x) P)).
          * apply outcome_visit; auto. apply Forall_forall. intros v Iv. apply (proj1 (proj1 K) v). eapply Permutation_in; [apply Permutation_sym; eauto|auto].
          * apply (search_out (lasts s1)); auto.
            -- eapply fam_perm; [exact PP|apply K].
            -- intros l Il. apply IQ. apply K. eapply lasts_perm; [exact PP|auto].
          * intros L1 L2 _ _ -> S2. exists L2. split; auto. eapply spec_perm; [apply Permutation_sym; exact PP|auto].
        + intros st. unfold search_from. rewrite (lastof_elem x [] Ex). cbn [bind]. rewrite EA. cbn zeta.
          assert (ES : map snd (row_of (n :: N)) = n :: N) by (unfold row_of; rewrite map_map; apply map_id). rewrite ES. reflexivity. }
    eapply outcome_bind; [exact OX|exact IH|]. intros L1 L2 _ _ (L3 & -> & S1) S2. rewrite <- app_assoc. eapply spec_cons; eauto.
  Qed.
  (** * The lists of size 1 *)
  Definition s1_sel (acc : list vl) (s : selector) : res (list vl) :=
    do o <- estimate [s];
    if vc_oe_reaches c o then do x <- vls_init [s] (pos_rows df tsel [s]) (neg_rows df tsel [s]) (df_n df) o; Ok (acc ++ [x]) else Ok acc.
  Lemma s1_sel_out : forall ss, NoDup ss -> (forall s, In s ss -> covered [s]) -> forall acc,
    (exists N, fam [] N /\ incl (lasts N) ss /\ (forall s, In s ss -> promising [s] -> In s (lasts N)) /\ fold_res s1_sel ss acc = Ok (acc ++ N)) \/
    (exists e, raises estimate e /\ fold_res s1_sel ss acc = Err e).
  Proof.
    induction ss as [|s ss IH]; intros ND HC acc; cbn [fold_res].
    - left. exists []. split; [split; [intros v []|constructor]|]. split; [intros l []|]. split; [intros x []|]. rewrite app_nil_r. reflexivity.
    - inversion ND as [|? ? Ns ND']; subst. pose proof (HC s (or_introl eq_refl)) as Cs.
      specialize (IH ND' (fun x Ix => HC x (or_intror Ix))). unfold s1_sel at 1 3. destruct (estimate [s]) as [o|e] eqn:Eo; cbn [bind].
      + destruct (vc_oe_reaches c o) eqn:Ro.
        * cbn [vls_init bind].
          match goal with |- context [acc ++ [?w]] => set (n := w) end.
          assert (Ln : lastof n = s) by reflexivity.
          assert (Gn : good n).
          { split; [|split; auto]. eapply built_base; [|reflexivity]. exact Eo. }
          destruct (IH (acc ++ [n])) as [(N & F & I & C & E)|H]; [left|right; auto]. exists (n :: N). split; [|split; [|split]].
          -- split; [intros v [<-|Iv]; [split; [exact Gn|reflexivity]|apply F; auto]|]. cbn [lasts map]. constructor; [|apply F]. rewrite Ln. intros J; apply Ns, I; auto.
          -- intros l [<-|Il]; [left; auto|right; auto].
          -- intros x [<-|Ix] HP; [left; auto|right; auto].
          -- rewrite E, <- app_assoc. reflexivity.
        * destruct (IH acc) as [(N & F & I & C & E)|H]; [left|right; auto]. exists N. split; auto. split; [intros l Il; right; auto|]. split; auto.
          intros x [<-|Ix] HP; auto. exfalso. apply promising_self with (o := o) in HP; [congruence|discriminate|auto].
      + right. exists e. split; auto. exists [s]. auto.
  Qed.
  Lemma fold_flat : forall {A B S} (f : S -> B -> res S) (g : A -> list B) l s,
    fold_res f (flat_map g l) s = fold_res (fun s a => fold_res f (g a) s) l s.
  Proof.
    intros A B S f g l. induction l as [|a l IH]; intros s; cbn [flat_map fold_res]; auto. rewrite fold_res_app.
    destruct (fold_res f (g a) s); cbn [bind]; auto.
  Qed.
  Lemma fold_map : forall {A B S} (f : S -> B -> res S) (g : A -> B) l s, fold_res f (map g l) s = fold_res (fun s a => f s (g a)) l s.
  Proof. intros A B S f g l. induction l as [|a l IH]; intros s; cbn [map fold_res]; auto. destruct (f s (g a)); cbn [bind]; auto. Qed.
  Lemma fold_ext_in : forall {A S} (f g : S -> A -> res S) l s, (forall s a, In a l -> f s a = g s a) -> fold_res f l s = fold_res g l s.
  Proof.
    intros A S f g l. induction l as [|a l IH]; intros s H; cbn [fold_res]; auto. rewrite H by (left; auto).
    destruct (g s a); cbn [bind]; auto. apply IH. intros; apply H; right; auto.
  Qed.
  Lemma registers_rows : forall mask a col v (b : bool), target_mask df tcol (VStr tval) = Ok mask -> In (a, col) (df_cols df) ->
    registers mask col v b = if b then pos_rows df tsel [Sel a EQUAL v] else neg_rows df tsel [Sel a EQUAL v].
  Proof.
    intros mask a col v b Hm I. destruct (mask_spec df tcol tval Hcat Hcol) as (mask' & Hm' & Lm & Nm). rewrite Hm in Hm'. injection Hm' as <-.
    pose proof (col_length df Hcat _ _ I) as Lc. unfold registers. rewrite Lc.
    assert (C : col_get (df_cols df) a = Some col) by (apply col_get_in; auto; apply Hcat).
    assert (E : forall i, i < df_n df -> match nth_error mask i, nth_error col i with Some m, Some w => Bool.eqb m b && py_eq w v | _, _ => false end =
      (Bool.eqb (row_matchesb df i tsel) b && matches_all df [Sel a EQUAL v] i)).
    { intros i Hi. rewrite (nth_error_nth' mask false) by lia. rewrite Nm by auto. fold tsel.
      assert (Em : matches_all df [Sel a EQUAL v] i = match nth_error col i with Some w => py_eq w v | None => false end).
      { unfold matches_all. cbn [forallb]. rewrite andb_true_r. unfold row_matchesb, cell. cbn [s_attr s_op s_val op_evaluate]. rewrite C. reflexivity. }
      rewrite Em. destruct (nth_error col i); [reflexivity|]. rewrite andb_false_r. reflexivity. }
    destruct b; unfold pos_rows, neg_rows; apply filter_ext_in; intros i Ii; apply in_seq in Ii; rewrite E by lia;
      destruct (row_matchesb df i tsel); reflexivity.
  Qed.
  Lemma s1_value_sel : forall mask a col v acc, target_mask df tcol (VStr tval) = Ok mask -> In (a, col) (df_cols df) ->
    s1_value with_sets c mask TP FP a col acc v = s1_sel acc (Sel a EQUAL v).
  Proof.
    intros mask a col v acc Hm I. unfold s1_value, s1_sel. rewrite (registers_rows mask a col v true Hm I), (registers_rows mask a col v false Hm I).
    assert (En : Z.to_nat (TP + FP) = df_n df).
    { destruct (mask_spec df tcol tval Hcat Hcol) as (mask' & Hm' & Lm & _). pose proof (population_spec df tcol tval Hcat Hcol mask Hm) as P.
      unfold population in P. unfold TP, FP. injection P as P1 P2. rewrite <- P2, <- P1. lia. }
    rewrite En. reflexivity.
  Qed.
  Lemma covered_value : forall a col v, In (a, col) (other_columns df tcol) -> In v (group_values col) -> covered [Sel a EQUAL v].
  Proof.
    intros a col v I Iv. assert (HU : U df tcol (Sel a EQUAL v)).
    { apply Uk_U, (all_sels_U df tcol tval Hcat (fun _ _ => true) (other_columns df tcol)); [apply incl_refl|]. unfold all_sels. apply in_flat_map. exists (a, col). split; auto. apply in_map; auto. }
    split; [discriminate|]. split; [constructor; [intros []|constructor]|]. split; [intros s [<-|[]]; auto|].
    apply (cols_in df tcol) in I. destruct I as [I _].
    assert (Iv' : In v col).
    { refine (proj1 (group_in df tcol tval (fun _ _ => true) col v _) Iv). intros x Ix. destruct Hcat as (_ & _ & Hs). eapply Hs; eauto. }
    apply In_nth_error in Iv'. destruct Iv' as [i Ei]. unfold coverage.
    assert (Ii : In i (filter (fun i => forallb (row_matchesb df i) [Sel a EQUAL v]) (seq 0 (df_n df)))).
    { apply filter_In. split.
      - apply in_seq. rewrite <- (col_length df Hcat _ _ I). split; [lia|]. apply nth_error_Some. cbn. congruence.
      - cbn [forallb]. rewrite andb_true_r. apply (row_match_cell df Hcat); [apply HU|]. unfold cell. cbn [s_attr s_val].
        assert (C : col_get (df_cols df) a = Some col) by (apply col_get_in; auto; apply Hcat). rewrite C. auto. }
    destruct (filter _ _); [destruct Ii|cbn; lia].
  Qed.
  Lemma s1_out : forall mask, target_mask df tcol (VStr tval) = Ok mask ->
    (exists s1, fam [] s1 /\ (forall s, covered [s] -> promising [s] -> In s (lasts s1)) /\ generate_s1 with_sets c df mask tcol TP FP = Ok s1) \/
    (exists e, raises estimate e /\ generate_s1 with_sets c df mask tcol TP FP = Err e).
  Proof.
    intros mask Hm. unfold generate_s1.
    assert (E : fold_res (fun acc nc => fold_res (s1_value with_sets c mask TP FP (fst nc) (snd nc)) (group_values (snd nc)) acc) (other_columns df tcol) [] =
                fold_res s1_sel (all_sels (other_columns df tcol)) []).
    { unfold all_sels. rewrite fold_flat. apply fold_ext_in. intros acc [a col] I. cbn [fst snd]. rewrite fold_map. apply fold_ext_in.
      intros acc' v _. apply s1_value_sel; auto. apply (cols_in df tcol) in I. tauto. }
    rewrite E. destruct (s1_sel_out (all_sels (other_columns df tcol))) with (acc := @nil vl) as [(N & F & I & C & EN)|(e & R & EN)].
    - apply (all_sels_nodup df tcol tval Hcat (fun _ _ => true)); [apply incl_refl|apply (cols_nodup df tcol tval Hcat (fun _ _ => true))].
    - intros s Is. unfold all_sels in Is. apply in_flat_map in Is. destruct Is as ([a col] & I1 & I2). cbn [fst snd] in I2.
      apply in_map_iff in I2. destruct I2 as (v & <- & Iv). eapply covered_value; eauto.
    - left. rewrite EN. cbn [bind app]. pose proof (vl_sort_perm c (vc_sort_s1 c) N) as PP. eexists. split; [eapply fam_perm; eauto|]. split; [|reflexivity].
      intros s Cs HP. apply (lasts_perm _ _ s PP). apply C; auto. destruct Cs as (_ & _ & HU & Cv).
      unfold coverage in Cv. destruct (filter _ _) as [|i l] eqn:Ef; [cbn in Cv; lia|].
      assert (Ii : In i (i :: l)) by (left; auto). rewrite <- Ef in Ii. apply filter_In in Ii. cbn [forallb] in Ii. rewrite andb_true_r in Ii.
      eapply (matching_in df tcol tval Hcat (fun _ _ => true)); [apply HU; left; auto|apply Ii].
    - right. exists e. rewrite EN. auto.
  Qed.
  (** * fit *)
  (** Every visited list is good, no two of them have the same selectors, and every promising
      description is visited. *)
  Definition spec_all (L : list vl) : Prop :=
    ForallOrdPairs (fun v w : vl => ~ same_set (vl_sels v) (vl_sels w)) L /\
    forall X, covered X -> promising X -> exists v, In v L /\ same_set (vl_sels v) X.
  Theorem fit_out : exists run, outcome run spec_all /\ forall st, vlsd_fit with_sets c st df tcol tval =
    run (if vc_write c then VS (vs_selected st) (vs_unselected st) (Some []) else st).
  Proof.
    destruct (mask_spec df tcol tval Hcat Hcol) as (mask & Hm & _).
    exists (fun st => do s1 <- generate_s1 with_sets c df mask tcol TP FP; do st <- fold_res handle s1 st;
                      do M <- build_matrix with_sets c TP FP s1 []; fold_res (search_from with_sets c M tsel TP FP) (removelast s1) st).
    split.
    2:{ intros st. unfold vlsd_fit. rewrite all_str_columns by auto. cbn [negb]. rewrite Hm. cbn [bind]. rewrite (population_spec df tcol tval Hcat Hcol mask Hm). reflexivity. }
    destruct (s1_out mask Hm) as [(s1 & HF & HC & E)|(e & R & E)].
    - rewrite E. cbn [bind]. destruct (matrix_out s1 [] HF) as [(M & HM & EM)|(e & R & EM)]; [intros p []| |].
      + rewrite EM. cbn [bind app]. eapply (outcome_bind (fun st => fold_res handle s1 st) _ (fun L => L = s1) (spec [] s1)).
        * apply outcome_visit; auto. apply Forall_forall. intros v Iv. apply (proj1 HF v Iv).
        * eapply (top_out s1 M HF HM s1 []). reflexivity.
        * intros L1 L2 _ _ -> (A & B & C). split.
          -- apply FOP_app; auto; [eapply fam_distinct; eauto|]. intros v w Iv Iw SS. destruct (A w Iw) as (Y & H1 & H2 & _ & H4). cbn [app] in H4.
             rewrite (singleton_sels v s1 HF Iv), H4 in SS. assert (IY : incl Y [lastof v]) by (intros y Iy; apply SS; auto).
             pose proof (NoDup_incl_length H2 IY) as Q. cbn in Q. lia.
          -- intros X (NX & ND & HU & Cv) HP.
             assert (IX : forall x, In x X -> In x (lasts s1)).
             { intros x Ix. apply HC; [|eapply promising_incl; [|exact HP]; intros s [<-|[]]; auto].
               split; [discriminate|]. split; [constructor; [intros []|constructor]|]. split; [intros s [<-|[]]; auto|].
               etransitivity; [exact Cv|]. apply coverage_incl. intros s [<-|[]]; auto. }
             destruct X as [|x [|x' X]]; [congruence| |].
             ++ specialize (IX x (or_introl eq_refl)). unfold lasts in IX. apply in_map_iff in IX. destruct IX as (v & Ev & Iv).
                exists v. split; [apply in_or_app; auto|]. rewrite (singleton_sels v s1 HF Iv), Ev. intros s; tauto.
             ++ destruct (C (x :: x' :: X)) as (v & Iv & SS); auto; [cbn; lia|]. exists v. split; auto. apply in_or_app; auto.
      + right. split; [eauto|]. intros st. destruct (fold_res handle s1 st) as [st'|e'] eqn:EH; cbn [bind].
        * rewrite EM. exists e. auto.
        * exists e'. split; auto. right. eapply handle_raises; [|exact EH]. apply Forall_forall. intros v Iv. apply (proj1 HF v Iv).
    - right. split; [eauto|]. intros st. rewrite E. exists e. auto.
  Qed.
End Main.
