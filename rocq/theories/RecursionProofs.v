(** The depth of the recursion of the miners (C84). *)
From Verif Require Export RecursionModel SDMapStarProofs SDMapStarErrors.
From Verif Require Import OrderFacts CoreOrder CorePattern VerticalProofs Properties_SDMap.
Open Scope string_scope.
Open Scope list_scope.
Open Scope nat_scope.

Lemma combinations_enough : forall A (l : list A) n, length l < n -> combinations_within n l = Ok (generate_all_combinations l).
Proof.
  induction l as [|x l IH]; intros [|n] H; cbn [length] in *; try lia; [reflexivity|]. cbn [combinations_within generate_all_combinations].
  rewrite IH by lia. reflexivity.
Qed.

(** The number of different attributes. *)
Definition attrs (l : list selector) : list string := nodup string_dec (map s_attr l).
Definition width (l : list selector) : nat := length (attrs l).
Lemma in_attrs : forall a l, In a (attrs l) <-> exists s, In s l /\ s_attr s = a.
Proof. intros a l. unfold attrs. rewrite nodup_In, in_map_iff. split; intros (s & H); exists s; tauto. Qed.
Lemma width_lt : forall k k' s, In s k -> (forall x, In x k' -> In x k /\ s_attr x <> s_attr s) -> width k' < width k.
Proof.
  intros k k' s Is H. unfold width. assert (length (s_attr s :: attrs k') <= length (attrs k)); [|cbn [length] in *; lia].
  apply NoDup_incl_length.
  - constructor; [|apply NoDup_nodup]. intros I. apply in_attrs in I. destruct I as (x & Ix & E). apply (H x Ix); auto.
  - intros a [<-|I]; apply in_attrs; [eauto|]. apply in_attrs in I. destruct I as (x & Ix & E). exists x. split; auto. apply H; auto.
Qed.
Lemma width_full : forall l, NoDup (map s_attr l) -> width l = length l.
Proof. intros l H. unfold width, attrs. rewrite nodup_fixed_point by auto. apply map_length. Qed.

Section Depth.
  Variable U : selector -> Prop.
  Hypothesis U_nominal : forall s, U s -> nominal s.
  Hypothesis U_key : forall s t, U s -> U t -> skey s = skey t -> s = t.
  Variable ok : Z -> Z -> bool.
  Hypothesis ok_mono : forall a b a' b', (a <= a' -> b <= b' -> ok a b = true -> ok a' b' = true)%Z.
  Notation good := (good U ok).
  Notation itemset := (itemset ok).
  Notation ks D := (keys (paths (build D))).
  (** Frequent pairs have different attributes. *)
  Definition one_each (D : db) : Prop := forall x y, itemset D [x; y] -> s_attr x <> s_attr y.

  Lemma itemset_sub : forall lt D Y Z, good lt D -> Y <> [] -> NoDup Y -> incl Y Z -> itemset D Z -> itemset D Y.
  Proof.
    intros lt D Y Z G NY ND I (_ & _ & P & O). assert (L : forall k, (cnt k D Z <= cnt k D Y)%Z).
    { intros k. unfold cnt. apply asum_le; [apply G|]. intros e Ie Q. rewrite subb_true in *. intros x Ix. auto. }
    pose proof (L true). pose proof (L false). split; auto. split; auto. unfold cn in *. split; [lia|]. eapply ok_mono; [| |exact O]; auto.
  Qed.
  (** The conditional database of [s] has fewer attributes. *)
  Lemma conditional_width : forall lt D s lt' D', good lt D -> one_each D -> In s (ks D) -> good lt' D' ->
    (forall x, In x (ks D') -> In x (ks D) /\ x <> s) -> (forall Y, itemset D' Y -> itemset D (Y ++ [s])) ->
    one_each D' /\ width (ks D') < width (ks D).
  Proof.
    intros lt D s lt' D' G O Is G' K C. split.
    - intros x y HI. apply O. pose proof (C _ HI) as H. pose proof HI as (_ & ND & _). eapply itemset_sub; [exact G| |exact ND| |exact H]; [discriminate|].
      intros z Iz. apply in_or_app; auto.
    - apply (width_lt _ _ s); auto. intros x Ix. destruct (K x Ix) as [I N]. split; auto. apply O.
      apply (C [x]), (singleton_itemset U ok lt' D' x G' Ix).
  Qed.
  (** On a single path all the attributes are different. *)
  Lemma single_width : forall lt t D ch, good lt D -> one_each D -> tree_for t D -> (forall e, In e D -> FPGrowthProofs.prefix (fst e) ch) -> length (t_sorted t) <= width (ks D).
  Proof.
    intros lt t D ch G O T H. rewrite <- (Permutation_length (sorted_perm t D T)). rewrite width_full; auto.
    assert (P : forall x y, In x (ks D) -> In y (ks D) -> x <> y -> itemset D [x; y]).
    { intros x y Ix Iy N.
      assert (L : forall (a b : path), FPGrowthProofs.prefix a ch -> FPGrowthProofs.prefix b ch -> length a <= length b -> incl a b).
      { intros a b [r1 H1] [r2 H2] Hl. rewrite H1 in H2. clear -H2 Hl. revert b H2 Hl.
        induction a as [|z a IHa]; intros b H2 Hl; [intros w []|]. destruct b as [|w b]; [cbn in Hl; lia|]. cbn in H2. injection H2 as -> H2.
        intros v [->|Iv]; [left; auto|right]. eapply IHa; eauto. cbn in Hl; lia. }
      assert (Q : (forall e, In e D -> In x (fst e) -> In y (fst e)) \/ (forall e, In e D -> In y (fst e) -> In x (fst e))).
      { assert (Dec : forall a b, (forall e, In e D -> In a (fst e) -> In b (fst e)) \/ exists e, In e D /\ In a (fst e) /\ ~ In b (fst e)).
        { clear. intros a b. induction D as [|d D IH]; [left; intros e []|]. destruct IH as [IH|(e & Ie & H)]; [|right; exists e; split; [right|]; auto].
          destruct (in_dec selector_eq_dec a (fst d)) as [Ia|Na]; [|left; intros e [<-|Ie]; auto; contradiction].
          destruct (in_dec selector_eq_dec b (fst d)) as [Ib|Nb]; [left; intros e [<-|Ie]; auto|right; exists d; split; [left|]; auto]. }
        destruct (Dec x y) as [Q|(e & Ie & E1 & E2)]; [left; exact Q|right]. intros f If F1.
        destruct (in_dec selector_eq_dec x (fst f)) as [|F2]; auto. exfalso.
        destruct (le_lt_dec (length (fst e)) (length (fst f))) as [Le|Le].
        - apply F2, (L (fst e) (fst f)); auto.
        - apply E2, (L (fst f) (fst e)); auto. lia. }
      assert (W : forall a b, (forall e, In e D -> In a (fst e) -> In b (fst e)) -> forall k, cnt k D [a] = cnt k D [a; b]).
      { intros a b Q' k. unfold cnt. apply asum_ext. intros e Ie. apply bool_iff. rewrite !subb_true. split.
        - intros I z [<-|[<-|[]]]; [apply I; left; auto|apply Q'; auto; apply I; left; auto].
        - intros I z [<-|[]]. apply I; left; auto. }
      assert (ND2 : NoDup [x; y]) by (constructor; [intros [E|[]]; auto|constructor; [intros []|constructor]]).
      destruct (singleton_itemset U ok lt D x G Ix) as (_ & _ & P1 & P2). destruct (singleton_itemset U ok lt D y G Iy) as (_ & _ & P3 & P4).
      unfold cn in *. destruct Q as [Q|Q].
      - split; [discriminate|]. split; auto. unfold cn. rewrite <- !(W x y Q). auto.
      - apply (itemset_perm ok D [y; x]); [apply perm_swap|]. split; [discriminate|]. split; [apply (Permutation_NoDup (perm_swap y x [])); auto|].
        unfold cn. rewrite <- !(W y x Q). auto. }
    pose proof (keys_nodup (paths (build D))) as ND. fold (ks D) in P. revert P ND. generalize (ks D) as l. clear -O.
    induction l as [|x l IH]; intros P ND; cbn [map]; constructor; inversion ND; subst.
    - intros I. apply in_map_iff in I. destruct I as (y & E & Iy). apply (O y x); auto. apply P; [right; auto|left; auto|]. congruence.
    - apply IH; auto. intros a b Ia Ib. apply P; right; auto.
  Qed.
  (** The conditional databases of sdmap.py. *)
  Lemma conditional_items : forall lt t D s alpha mtp mfp mn, good lt D -> tree_for t D -> In s (ks D) -> thresholds mtp mfp mn = Ok ok ->
    exists ct D' lt', generate_conditional_fp_tree t (s :: alpha) mtp mfp mn = Ok ct /\ good lt' D' /\ tree_for ct D' /\
      (forall x, In x (ks D') -> In x (ks D) /\ x <> s) /\ (forall Y, itemset D' Y -> itemset D (Y ++ [s])).
  Proof.
    intros lt t D s alpha mtp mfp mn G T Is Hok.
    destruct (conditional_spec U U_nominal U_key ok ok_mono lt t D s alpha mtp mfp mn G T Is Hok) as (ct & D' & lt' & E & G' & T' & K' & C' & I' & _).
    exists ct, D', lt'. repeat (split; [assumption|]). intros Y HI. pose proof (itemset_keys U ok lt' D' Y G' HI) as IK.
    apply I' in HI. destruct HI as (NY & ND & P & Ok). pose proof (cpr_lt U ok lt D s Y G P) as L.
    rewrite !(cpr_max U ok lt D s Y _ G L) in *. split; [destruct Y; discriminate|]. split; [|split; auto].
    apply (Permutation_NoDup (Permutation_cons_append Y s)). constructor; auto. intros I. destruct (K' s (IK s I)); congruence.
  Qed.

  Section SDMap.
    Context {V : Type}.
    Variable c : sd_config V.
    Variable tsel : selector.
    Variables TP FP : Z.
    Hypothesis Hok : thresholds (c_min_tp c) (c_min_fp c) (c_min_n c) = Ok ok.
    Lemma fpgrowth_enough : forall n fuel lt t D alpha st, good lt D -> tree_for t D -> one_each D ->
      S (width (ks D)) < n -> length (ks D) < fuel -> fpgrowth_within c tsel TP FP n t alpha st = fpgrowth c tsel TP FP fuel t alpha st.
    Proof.
      induction n as [|n IH]; intros fuel lt t D alpha st G T O Hn Hf; [lia|]. destruct fuel as [|f]; [lia|]. cbn [fpgrowth_within fpgrowth].
      destruct (single_path t D) as (b & Eb & Hb); [apply T|]. rewrite Eb. cbn [bind]. destruct b.
      - destruct (Hb eq_refl) as [ch Hch]. rewrite combinations_enough; [reflexivity|]. pose proof (single_width lt t D ch G O T Hch). lia.
      - clear Hb. apply fold_res_ext. intros st1 s Is. apply (Permutation_in s (Permutation_sym (sorted_perm t D T))) in Is.
        destruct (sel_assoc s (t_header t)) as [e|]; auto. destruct (handle_individual_result c tsel TP FP st1 _) as [st2|]; cbn [bind]; auto.
        destruct (conditional_items lt t D s alpha _ _ _ G T Is Hok) as (ct & D' & lt' & E & G' & T' & K & C). rewrite E. cbn [bind].
        destruct (is_empty ct); auto. destruct (conditional_width lt D s lt' D' G O Is G' K C) as [O' W].
        apply (IH f lt' ct D'); auto; [lia|].
        assert (length (s :: ks D') <= length (ks D)).
        { apply NoDup_incl_length; [constructor; [|apply keys_nodup]|].
          - intros X. destruct (K s X) as [_ N]. congruence.
          - intros x [<-|X]; auto. apply K; auto. }
        cbn [length] in *. lia.
    Qed.
  End SDMap.
  Section Star.
    Context {V : Type}.
    Variable c : star_config V.
    Variable tsel : selector.
    Variables TP FP : Z.
    Hypothesis Hok : thresholds (c_min_tp (sc_base c)) (c_min_fp (sc_base c)) (c_min_n (sc_base c)) = Ok ok.
    Lemma star_order_in : forall lt t D l s, good lt D -> tree_for t D -> star_order c TP FP t = Ok l -> In s l -> In s (ks D).
    Proof.
      intros lt t D l s G T E I. destruct (0 <? sc_num c)%Z eqn:N.
      - apply Z.ltb_lt in N. pose proof (order_perm U ok c TP FP N lt t D l G T E) as P. apply (Permutation_in s P); auto.
      - unfold star_order in E. rewrite N in E. assert (Ok l = Ok (map fst (t_header t))) as X by congruence. injection X as ->.
        destruct (proj1 T) as (_ & _ & _ & _ & Eh). rewrite Eh in I. unfold header_of in I. rewrite map_map in I. cbn [fst] in I. rewrite map_id in I. auto.
    Qed.
    Lemma star_fpgrowth_enough : forall n fuel lt t D alpha st, good lt D -> tree_for t D -> one_each D ->
      S (width (ks D)) < n -> length (ks D) < fuel -> star_fpgrowth_within c tsel TP FP n t alpha st = star_fpgrowth c tsel TP FP fuel t alpha st.
    Proof.
      induction n as [|n IH]; intros fuel lt t D alpha st G T O Hn Hf; [lia|]. destruct fuel as [|f]; [lia|]. cbn [star_fpgrowth_within star_fpgrowth].
      destruct (single_path t D) as (b & Eb & Hb); [apply T|]. rewrite Eb. cbn [bind]. destruct b.
      - destruct (Hb eq_refl) as [ch Hch]. rewrite combinations_enough; [reflexivity|]. pose proof (single_width lt t D ch G O T Hch). lia.
      - clear Hb. destruct (star_order c TP FP t) as [l|] eqn:El; cbn [bind]; auto.
        apply fold_res_ext. intros st1 s Is. apply (star_order_in lt t D l s G T El) in Is.
        destruct (sel_assoc s (t_header t)) as [e|]; auto. destruct (star_visit c tsel TP FP st1 _) as [[b st2]|]; cbn [bind]; auto. destruct b; auto.
        destruct (star_conditional c TP FP st2 t (s :: alpha)) as [[ct st3]|] eqn:Ec; cbn [bind]; auto.
        destruct (is_empty ct); auto.
        assert (exists D' lt', good lt' D' /\ tree_for ct D' /\ (forall x, In x (ks D') -> In x (ks D) /\ x <> s) /\ (forall Y, itemset D' Y -> itemset D (Y ++ [s]))) as (D' & lt' & G' & T' & K & C).
        { unfold star_conditional in Ec. destruct (0 <? sc_num c)%Z.
          - destruct (worst_k st2) as [w|]; [|discriminate]. cbn [bind] in Ec. destruct (generate_conditional_fp_tree_star _ _ _ _ _ _) as [r|] eqn:Eg; [|discriminate]. cbn [bind] in Ec.
            injection Ec as <- _. destruct (conditional_star_spec U U_nominal U_key ok ok_mono lt t D s alpha _ _ _ _ r G T Is Hok Eg) as (D' & lt' & G' & T' & K' & C1 & _).
            exists D', lt'. repeat (split; [assumption|]). intros Y HY. apply (C1 Y HY).
          - destruct (conditional_items lt t D s alpha _ _ _ G T Is Hok) as (ct' & D' & lt' & E & G' & T' & K & C). rewrite E in Ec. cbn [bind] in Ec. injection Ec as <- _.
            exists D', lt'. auto. }
        destruct (conditional_width lt D s lt' D' G O Is G' K C) as [O' W].
        apply (IH f lt' ct D'); auto; [lia|].
        assert (length (s :: ks D') <= length (ks D)).
        { apply NoDup_incl_length; [constructor; [|apply keys_nodup]|].
          - intros X. destruct (K s X) as [_ N]. congruence.
          - intros x [<-|X]; auto. apply K; auto. }
        cbn [length] in *. lia.
    Qed.
  End Star.
End Depth.

(** * One row satisfies one selector per column *)
Lemma coverage_attrs : forall df tcol X, categorical df -> NoDup X -> (forall s, In s X -> U df tcol s) -> 1 <= coverage df X -> NoDup (map s_attr X).
Proof.
  intros df tcol X Hcat ND HU C. assert (HN : forall s, In s X -> nominal s) by (intros s Is; apply (U_nominal df tcol); auto).
  unfold coverage in C. destruct (filter (fun i => forallb (row_matchesb df i) X) (seq 0 (df_n df))) as [|i l] eqn:E; [cbn in C; lia|].
  assert (I : In i (i :: l)) by (left; auto). rewrite <- E in I. apply filter_In in I. destruct I as [_ I]. rewrite forallb_forall in I. clear E C HU.
  induction X as [|x X IH]; cbn [map]; constructor; inversion ND as [|? ? Nx NX]; subst.
  - intros J. apply in_map_iff in J. destruct J as (y & Ey & Iy).
    pose proof (I x (or_introl eq_refl)) as M1. pose proof (I y (or_intror Iy)) as M2.
    pose proof (HN x (or_introl eq_refl)) as [O Sx]. pose proof (HN y (or_intror Iy)) as [O' Sy].
    apply row_match_cell in M1; auto; [|apply HN; left; auto]. apply row_match_cell in M2; auto; [|apply HN; right; auto]. rewrite Ey in M2.
    destruct x as [a op v], y as [b op' w]. cbn in *. subst. apply Nx. congruence.
  - apply IH; auto; intros s Is; [apply HN|apply I]; right; auto.
Qed.
Lemma attrs_columns : forall df tcol (l : list string), has_column df tcol -> NoDup l -> (forall a, In a l -> a <> tcol /\ exists col, In (a, col) (df_cols df)) ->
  length l < length (df_cols df).
Proof.
  intros df tcol l [c Hc] ND H. assert (length (tcol :: l) <= length (map fst (df_cols df))).
  { apply NoDup_incl_length.
    - constructor; auto. intros I. destruct (H _ I); congruence.
    - intros a [<-|I]; [|destruct (H a I) as [_ [col Ic]]; change a with (fst (a, col)); apply in_map; auto].
      clear -Hc. induction (df_cols df) as [|[b x] r IH]; [discriminate|]. cbn [col_get] in Hc. destruct (String.eqb tcol b) eqn:E.
      + apply String.eqb_eq in E. left; auto.
      + right; auto. }
  rewrite map_length in H0. cbn [length] in *. lia.
Qed.
Lemma one_each0 : forall df tcol tval ok D, categorical df -> (forall Y, itemset ok D Y -> Y <> [] /\ NoDup Y /\ (forall s, In s Y -> U df tcol s) /\ 1 <= coverage df Y /\
  ok (tp_of df (Sel tcol EQUAL (VStr tval)) Y) (fp_of df (Sel tcol EQUAL (VStr tval)) Y) = true) -> one_each ok D.
Proof.
  intros df tcol tval ok D Hcat H x y HI. apply H in HI. destruct HI as (_ & ND & HU & C & _).
  pose proof (coverage_attrs df tcol _ Hcat ND HU C) as N. cbn [map] in N. inversion N; subst. intros E. apply H2. left; auto.
Qed.
Lemma width0 : forall df tcol lt D (ok : Z -> Z -> bool), has_column df tcol -> good (Uk df tcol) ok lt D -> width (keys (paths (build D))) < length (df_cols df).
Proof.
  intros df tcol lt D ok Hcol G. apply (attrs_columns df tcol); auto; [apply NoDup_nodup|]. intros a I. apply in_attrs in I. destruct I as (s & Is & <-).
  apply keys_build in Is. destruct Is as (e & Ie & Is). destruct G as (_ & GU & _). pose proof (Uk_U _ _ _ (GU e s Ie Is)) as HU.
  destruct HU as (_ & col & Ic). apply (cols_in df tcol) in Ic. split; [apply Ic|]. exists col. apply Ic.
Qed.
