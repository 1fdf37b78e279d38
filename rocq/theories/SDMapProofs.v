(** SDMap's fit reports exactly the frequent descriptions (C25-C28). *)
From Verif Require Export MiningProofs.
From Verif Require Import OrderFacts CoreOrder CorePattern VerticalProofs.
Open Scope string_scope.
Open Scope list_scope.
Open Scope nat_scope.

(** * Patterns of nominal selectors *)
Lemma nominal_homogeneous : forall l, Forall nominal l -> homogeneous l.
Proof.
  intros l H s t Is It _ _. rewrite Forall_forall in H. destruct (H s Is) as [_ ->], (H t It) as [_ ->]. reflexivity.
Qed.
Lemma member_nominal : forall l s, Forall nominal l -> nominal s -> (member s l <-> In s l).
Proof.
  intros l s H Hs. unfold member. split.
  - intros (x & I & E). rewrite Forall_forall in H. apply sel_eq_nominal in E; auto. subst; auto.
  - intros I. exists s. split; auto. apply sel_eq_nominal; auto.
Qed.
Lemma slt_nodup : forall l, StronglySorted slt l -> NoDup l.
Proof.
  intros l S. induction S as [|x l S IH F]; constructor; auto. intros I. rewrite Forall_forall in F. specialize (F x I).
  unfold slt in F. assert (scmp x x = Eq) by (apply sel_eq_scmp, sel_eq_refl). congruence.
Qed.
Lemma pattern_nominal : forall Y, NoDup Y -> Forall nominal Y -> Permutation Y (pattern_init Y) /\ sorted_strictly (pattern_init Y).
Proof.
  intros Y ND H. pose proof (nominal_homogeneous Y H) as Hh. destruct (pattern_init_spec Y Hh) as (S & I & M).
  assert (HP : Forall nominal (pattern_init Y)) by (apply Forall_forall; intros x Ix; rewrite Forall_forall in H; auto).
  split.
  - apply NoDup_Permutation; auto using slt_nodup. intros x. split.
    + intros Ix. assert (Hx : nominal x) by (rewrite Forall_forall in H; auto). apply (member_nominal _ x HP Hx), M, member_nominal; auto.
    + apply I.
  - apply sorted_strictly_slt; auto using nominal_homogeneous.
Qed.
Lemma sorted_unique : forall X Y, Forall nominal X -> Forall nominal Y -> sorted_strictly X -> sorted_strictly Y ->
  (forall s, In s X <-> In s Y) -> X = Y.
Proof.
  intros X Y HX HY SX SY E. apply sorted_strictly_slt in SX, SY; auto using nominal_homogeneous.
  assert (F : Forall2 (fun x y => sel_eq x y = true) X Y).
  { apply sorted_same_members; auto. intros s. unfold member. split; intros (x & I & Q); exists x; split; auto; apply E; auto. }
  clear -F HX HY. induction F as [|x y X Y Q F IH]; auto. inversion HX; inversion HY; subst. apply sel_eq_nominal in Q; auto. subst. f_equal; auto.
Qed.
Lemma sorted_nodup_nominal : forall X, Forall nominal X -> sorted_strictly X -> NoDup X.
Proof. intros X H S. apply slt_nodup, sorted_strictly_slt; auto using nominal_homogeneous. Qed.

(** * Thresholds *)
Lemma thresholds_supported : forall mtp mfp mn ok, thresholds mtp mfp mn = Ok ok ->
  (forall a b, ok a b = true <-> supported mtp mfp mn a b) /\
  (forall a b a' b', (a <= a' -> b <= b' -> ok a b = true -> ok a' b' = true)%Z).
Proof.
  intros [a|] [b|] [c|] ok E; try discriminate; cbn in E; injection E as <-; cbn [supported]; split; intros.
  - rewrite andb_true_iff, !Z.leb_le. tauto.
  - rewrite andb_true_iff, !Z.leb_le in *. lia.
  - apply Z.leb_le.
  - rewrite Z.leb_le in *. lia.
Qed.

(** * The visits *)
Lemma matches_perm : forall df X Y i, (forall s, In s X <-> In s Y) -> matches_all df X i = matches_all df Y i.
Proof.
  intros df X Y i E. unfold matches_all. apply bool_iff. rewrite !forallb_forall. split; intros H s Is; apply H, E; auto.
Qed.
Lemma counts_perm : forall df t X Y, (forall s, In s X <-> In s Y) ->
  tp_of df t X = tp_of df t Y /\ fp_of df t X = fp_of df t Y /\ coverage df X = coverage df Y.
Proof.
  intros df t X Y E. unfold tp_of, fp_of, pos_rows, neg_rows, coverage.
  assert (M : forall i, matches_all df X i = matches_all df Y i) by (intros; apply matches_perm; auto).
  split; [|split].
  - do 2 f_equal. apply filter_ext. intros i. rewrite M; auto.
  - do 2 f_equal. apply filter_ext. intros i. rewrite M; auto.
  - f_equal. apply filter_ext. intros i. apply M.
Qed.

Theorem visits : forall df tcol tval mtp mfp mn ok, categorical df -> distinct_keys df tcol -> has_column df tcol ->
  thresholds mtp mfp mn = Ok ok ->
  exists d t, generate_set_of_frequent_selectors df tcol (VStr tval) mtp mfp mn = Ok d /\
    build_tree empty_tree df d tcol (VStr tval) = Ok t /\
    (is_empty t = true <-> forall X, ~ frequent df tcol tval mtp mfp mn X) /\
    forall St (visit : St -> pattern * (Z * Z) -> res St) hdr,
    (forall t lt D, good (Uk df tcol) ok lt D -> tree_for t D -> Permutation (hdr t) (keys (paths (build D)))) ->
    exists P, NoDup P /\ (forall X, In X P <-> frequent df tcol tval mtp mfp mn X) /\
      forall st, fpg visit hdr mtp mfp mn (S (length (t_header t))) t [] st =
        fold_res (fun st X => visit st (X, (tp_of df (Sel tcol EQUAL (VStr tval)) X, fp_of df (Sel tcol EQUAL (VStr tval)) X))) P st.
Proof.
  intros df tcol tval mtp mfp mn ok Hcat Hquo Hcol Hok.
  destruct (mask_spec df tcol tval Hcat Hcol) as (mask & Hm & _).
  destruct (thresholds_supported _ _ _ _ Hok) as [Hsup Hmono].
  destruct (dictionary df tcol tval Hcat Hquo Hcol ok mask Hm) as (o & Ed & Ho).
  set (ks0 := ks df tcol tval ok) in *. set (tsel := Sel tcol EQUAL (VStr tval)) in *.
  destruct (build_tree_spec df tcol tval Hcat Hquo Hcol ok mask Hm o Ho) as (t & Et & Tt).
  pose proof (good0 df tcol tval Hcat Hquo ok o Ho) as G0.
  pose proof (itemset_rows df tcol tval Hcat Hquo ok o Ho Hmono) as IR.
  set (D := D0 df tcol tval ok o) in *.
  eexists _, t. split; [|split; [|split]].
  - unfold generate_set_of_frequent_selectors. rewrite Hok. cbn [bind]. rewrite Hm. cbn [bind]. rewrite Ed. reflexivity.
  - exact Et.
  - assert (FI : forall X, frequent df tcol tval mtp mfp mn X -> itemset ok D X).
    { intros X ((NX & SX & DX) & C & Sp). apply IR. split; auto.
      assert (HU : forall s, In s X -> U df tcol s) by (intros s Is; apply U_description; auto).
      assert (HN : Forall nominal X) by (apply Forall_forall; intros s Is; apply (U_nominal df tcol); auto).
      split; [apply sorted_nodup_nominal; auto|]. split; auto. split; auto. apply Hsup; auto. }
    assert (IF : forall Y, itemset ok D Y -> frequent df tcol tval mtp mfp mn (pattern_init Y)).
    { intros Y HY. apply IR in HY. destruct HY as (NY & ND & HU & C & Ok).
      assert (HN : Forall nominal Y) by (apply Forall_forall; intros s Is; apply (U_nominal df tcol); auto).
      destruct (pattern_nominal Y ND HN) as [P S].
      assert (E : forall s, In s Y <-> In s (pattern_init Y)).
      { intros s. split; apply Permutation_in; [|apply Permutation_sym]; auto. }
      destruct (counts_perm df tsel Y (pattern_init Y) E) as (E1 & E2 & E3).
      split; [split; [|split; auto]|].
      - intros X. rewrite X in P. apply Permutation_sym, Permutation_nil in P. contradiction.
      - intros s Is. apply (U_description df tcol Hcat s), HU, E; auto.
      - fold tsel. rewrite <- E1, <- E2, <- E3. split; auto. apply Hsup; auto. }
    rewrite (is_empty_spec t D (proj1 Tt)). split.
    + intros H X HX. apply FI in HX. pose proof (itemset_keys (Uk df tcol) ok _ D X G0 HX) as I. rewrite H in I.
      destruct HX as (NX & _). destruct X as [|x X]; [contradiction|]. apply (I x); left; auto.
    + intros H. destruct (keys (paths (build D))) as [|s l] eqn:E; auto. exfalso.
      apply (H (pattern_init [s])), IF. apply (singleton_itemset (Uk df tcol) ok _ D s G0). rewrite E; left; auto.
  - intros St visit hdr Hhdr.
    destruct (fpg_spec (Uk df tcol) (Uk_nominal df tcol) (U_key df tcol Hquo) ok Hmono visit hdr mtp mfp mn Hok Hhdr
                (S (length (t_header t))) _ t D [] G0 Tt) as (V & (V1 & V2 & V3) & HV).
    { destruct (proj1 Tt) as (_ & _ & _ & _ & ->). unfold header_of. rewrite map_length. lia. }
    assert (Vn : forall v, In v V -> NoDup (fst v) /\ Forall nominal (fst v)).
    { intros v Iv. destruct (V1 v Iv) as [HI _]. apply IR in HI. destruct HI as (_ & ND & HU & _). split; auto.
      apply Forall_forall. intros s Is. apply (U_nominal df tcol); auto. }
    assert (Ein : forall Y, NoDup Y -> Forall nominal Y -> forall s, In s Y <-> In s (pattern_init Y)).
    { intros Y ND HN s. destruct (pattern_nominal Y ND HN) as [P S]. split; apply Permutation_in; [|apply Permutation_sym]; auto. }
    exists (map (fun v => pattern_init (fst v)) V). split; [|split].
    + clear HV V2. induction V3 as [|v V F V3 IH]; cbn [map]; constructor.
      * intros I. apply in_map_iff in I. destruct I as (w & E & Iw). rewrite Forall_forall in F. apply (F w Iw).
        destruct (Vn v (or_introl eq_refl)) as [N1 H1]. destruct (Vn w (or_intror Iw)) as [N2 H2].
        apply NoDup_Permutation; auto. intros x. rewrite (Ein _ N1 H1), (Ein _ N2 H2), E. tauto.
      * apply IH; intros; [apply V1|apply Vn]; right; auto.
    + intros X. rewrite in_map_iff. split.
      * intros (v & <- & Iv). destruct (V1 v Iv) as [HI _]. destruct (Vn v Iv) as [N1 H1]. apply IR in HI. destruct HI as (NY & ND & HU & C & Ok).
        destruct (pattern_nominal (fst v) ND H1) as [P S]. destruct (counts_perm df tsel (fst v) (pattern_init (fst v)) (Ein _ N1 H1)) as (E1 & E2 & E3).
        split; [split; [|split; auto]|].
        -- intros X. rewrite X in P. apply Permutation_sym, Permutation_nil in P. contradiction.
        -- intros s Is. apply (U_description df tcol Hcat s), HU. apply (Ein _ N1 H1); auto.
        -- fold tsel. rewrite <- E1, <- E2, <- E3. split; auto. apply Hsup; auto.
      * intros ((NX & SX & DX) & C & Sp).
        assert (HU : forall s, In s X -> U df tcol s) by (intros s Is; apply U_description; auto).
        assert (HN : Forall nominal X) by (apply Forall_forall; intros s Is; apply (U_nominal df tcol); auto).
        destruct (V2 X) as (v & Iv & Pv).
        { apply IR. split; auto. split; [apply sorted_nodup_nominal; auto|]. split; auto. split; auto. apply Hsup; auto. }
        exists v. split; auto. destruct (Vn v Iv) as [N1 H1]. destruct (pattern_nominal (fst v) N1 H1) as [P S].
        apply sorted_unique; auto.
        -- apply Forall_forall. intros x Ix. apply (Ein _ N1 H1) in Ix. rewrite Forall_forall in H1; auto.
        -- intros s. rewrite <- (Ein _ N1 H1). split; apply Permutation_in; [apply Permutation_sym|]; auto.
    + intros st. rewrite HV, fold_res_map. apply fold_res_ext. intros st' v Iv. unfold call. rewrite app_nil_r.
      destruct (V1 v Iv) as [HI Hs]. destruct (Vn v Iv) as [N1 H1]. rewrite Hs.
      assert (IY : incl (fst v) ks0).
      { intros y Iy. destruct (in_dec selector_eq_dec y ks0) as [|N]; auto. exfalso. destruct HI as (_ & _ & P & _).
        unfold D in P. rewrite (cn_zero df tcol tval Hcat Hquo ok o Ho) in P by (intros H; apply N; auto). lia. }
      unfold D. rewrite !(cnt_rows df tcol tval Hcat Hquo ok o Ho) by auto. fold tsel.
      destruct (counts_perm df tsel (fst v) (pattern_init (fst v)) (Ein _ N1 H1)) as (E1 & E2 & E3). rewrite E1, E2. reflexivity.
Qed.

(** * The loop of results *)
Section Handle.
  Context {V : Type}.
  Variable c : sd_config V.
  Variable tsel : selector.
  Variables TP FP : Z.
  Lemma fpgrowth_fpg : forall fuel t alpha st, fpgrowth c tsel TP FP fuel t alpha st =
    fpg (handle_individual_result c tsel TP FP) t_sorted (c_min_tp c) (c_min_fp c) (c_min_n c) fuel t alpha st.
  Proof.
    induction fuel as [|f IH]; intros t alpha st; [reflexivity|]. cbn [fpgrowth fpg].
    destruct (there_is_a_single_path t) as [[|]|]; cbn [bind]; auto. apply fold_res_ext. intros st' ai _.
    destruct (sel_assoc ai (t_header t)); auto. destruct (handle_individual_result _ _ _ _ _ _); cbn [bind]; auto.
    destruct (generate_conditional_fp_tree _ _ _ _ _); cbn [bind]; auto. destruct (is_empty _); auto.
  Qed.
  Variables tp fp : list selector -> Z.
  Definition q_of (X : list selector) : res V := c_measure c (tp X) (fp X) TP FP.
  Definition lines (P : list (list selector)) : list (record V) :=
    flat_map (fun X => match q_of X with Ok q => if c_reaches c q then [Rec (SG X tsel) q (tp X) (fp X) TP FP] else [] | Err _ => [] end) P.
  Definition misses (P : list (list selector)) : nat :=
    length (filter (fun X => match q_of X with Ok q => negb (c_reaches c q) | Err _ => false end) P).
  Lemma handle_ok : forall P st, (forall X, In X P -> exists q, q_of X = Ok q) ->
    fold_res (fun st X => handle_individual_result c tsel TP FP st (X, (tp X, fp X))) P st =
    Ok (SDS (st_selected st + length (lines P)) (st_unselected st + misses P)
            (if c_write c then match st_file st with Some l => Some (l ++ lines P) | None => None end else st_file st)).
  Proof.
    induction P as [|X P IH]; intros st H; cbn [fold_res].
    - destruct st as [a b [l|]]; cbn; rewrite ?Nat.add_0_r, ?app_nil_r; destruct (c_write c); reflexivity.
    - destruct (H X (or_introl eq_refl)) as [q Eq]. unfold handle_individual_result at 1.
      assert (Eq' : c_measure c (tp X) (fp X) TP FP = Ok q) by exact Eq. rewrite Eq'. cbn [bind].
      rewrite IH by (intros; apply H; right; auto).
      assert (L : lines (X :: P) = (if c_reaches c q then [Rec (SG X tsel) q (tp X) (fp X) TP FP] else []) ++ lines P).
      { unfold lines. cbn [flat_map]. rewrite Eq. reflexivity. }
      assert (M : misses (X :: P) = (if c_reaches c q then 0 else 1) + misses P).
      { unfold misses. cbn [filter]. rewrite Eq. destruct (c_reaches c q); reflexivity. }
      rewrite L, M. destruct (c_reaches c q); cbn [negb app length st_selected st_unselected st_file].
      + f_equal. f_equal; [lia|]. destruct (c_write c); auto. destruct (st_file st) as [l|]; cbn [append_line]; auto. rewrite <- app_assoc. reflexivity.
      + f_equal. f_equal. lia.
  Qed.
  Lemma handle_err : forall P st, (exists st', fold_res (fun st X => handle_individual_result c tsel TP FP st (X, (tp X, fp X))) P st = Ok st') ->
    forall X, In X P -> exists q, q_of X = Ok q.
  Proof.
    induction P as [|Y P IH]; intros st [st' E] X I; [destruct I|]. cbn [fold_res] in E. unfold handle_individual_result at 1 in E.
    destruct (c_measure c (tp Y) (fp Y) TP FP) as [q|] eqn:Eq; [|discriminate]. cbn [bind] in E.
    destruct I as [<-|I]; [exists q; auto|]. eapply IH; eauto.
  Qed.
  Lemma handle_err_e : forall P st e, fold_res (fun st X => handle_individual_result c tsel TP FP st (X, (tp X, fp X))) P st = Err e ->
    exists X, In X P /\ q_of X = Err e.
  Proof.
    induction P as [|Y P IH]; intros st e E; [discriminate|]. cbn [fold_res] in E. unfold handle_individual_result at 1 in E.
    destruct (c_measure c (tp Y) (fp Y) TP FP) as [q|] eqn:Eq; cbn [bind] in E.
    - destruct (IH _ _ E) as (X & I & H). exists X. split; auto. right; auto.
    - injection E as <-. exists Y. split; [left; auto|auto].
  Qed.
  Lemma lines_in : forall P r, In r (lines P) <-> exists X q, In X P /\ q_of X = Ok q /\ c_reaches c q = true /\ r = Rec (SG X tsel) q (tp X) (fp X) TP FP.
  Proof.
    intros P r. unfold lines. rewrite in_flat_map. split.
    - intros (X & I & J). destruct (q_of X) as [q|] eqn:E; [|destruct J]. destruct (c_reaches c q) eqn:R; [|destruct J].
      destruct J as [<-|[]]. exists X, q. auto.
    - intros (X & q & I & E & R & ->). exists X. split; auto. rewrite E, R. left; auto.
  Qed.
  Lemma lines_nodup : forall P, NoDup P -> NoDup (map r_subgroup (lines P)).
  Proof.
    intros P ND. induction ND as [|X P N ND IH]; cbn [lines flat_map map]; [constructor|]. fold (lines P). rewrite map_app.
    destruct (q_of X) as [q|] eqn:E; cbn [map app]; auto. destruct (c_reaches c q); cbn [map app]; auto. constructor; auto.
    intros I. apply in_map_iff in I. destruct I as (r & E' & I). apply lines_in in I. destruct I as (Y & q' & IY & _ & _ & ->).
    cbn in E'. injection E' as ->. contradiction.
  Qed.
  Lemma lines_misses : forall P, (forall X, In X P -> exists q, q_of X = Ok q) -> length (lines P) + misses P = length P.
  Proof.
    induction P as [|X P IH]; intros H; [reflexivity|]. specialize (IH ltac:(intros; apply H; right; auto)).
    destruct (H X (or_introl eq_refl)) as [q Eq]. unfold lines, misses in *. cbn [flat_map filter]. rewrite Eq.
    destruct (c_reaches c q); cbn [negb app length]; lia.
  Qed.
End Handle.

Definition all_str_columns : forall df, categorical df -> all_nominal df = true.
Proof.
  intros df (_ & _ & S). unfold all_nominal. apply forallb_forall. intros [a col] I. apply forallb_forall. intros v Iv. eapply S; eauto.
Qed.

(** The whole of fit. *)
Theorem sdmap_fit_all : forall V (c : sd_config V) ok df tcol tval, categorical df -> distinct_keys df tcol -> has_column df tcol ->
  thresholds (c_min_tp c) (c_min_fp c) (c_min_n c) = Ok ok ->
  exists P, NoDup P /\ (forall X, In X P <-> frequent df tcol tval (c_min_tp c) (c_min_fp c) (c_min_n c) X) /\ forall st,
    sdmap_fit c st df tcol tval =
      match P with
      | [] => Ok st
      | _ => fold_res (fun st X => handle_individual_result c (Sel tcol EQUAL (VStr tval)) (TP_of df tcol tval) (FP_of df tcol tval) st
                (X, (tp_of df (Sel tcol EQUAL (VStr tval)) X, fp_of df (Sel tcol EQUAL (VStr tval)) X))) P
               (if c_write c then SDS (st_selected st) (st_unselected st) (Some []) else st)
      end.
Proof.
  intros V c ok df tcol tval Hcat Hquo Hcol Hok.
  destruct (visits df tcol tval _ _ _ ok Hcat Hquo Hcol Hok) as (d & t & E1 & E2 & E3 & E4).
  destruct (mask_spec df tcol tval Hcat Hcol) as (mask & Hm & _).
  destruct (E4 _ (handle_individual_result c (Sel tcol EQUAL (VStr tval)) (TP_of df tcol tval) (FP_of df tcol tval)) t_sorted) as (P & P1 & P2 & P3).
  { intros t' lt D _ T. apply Permutation_sym, (sorted_perm t' D T). }
  exists P. split; auto. split; auto. intros st. unfold sdmap_fit. rewrite all_str_columns by auto. cbn [negb]. rewrite E1. cbn [bind]. rewrite E2. cbn [bind].
  destruct (is_empty t) eqn:Ee.
  - destruct P as [|X P]; auto. exfalso. apply (proj1 E3 eq_refl X), P2. left; auto.
  - rewrite Hm. cbn [bind]. rewrite (population_spec df tcol tval Hcat Hcol mask Hm). rewrite fpgrowth_fpg, P3.
    destruct P as [|X P]; auto. exfalso. assert (F : false = true); [|discriminate]. apply E3. intros X HX. apply P2 in HX. destruct HX.
Qed.
Theorem sdmap_fit_spec : forall V (c : sd_config V) ok df tcol tval st, categorical df -> distinct_keys df tcol -> has_column df tcol ->
  thresholds (c_min_tp c) (c_min_fp c) (c_min_n c) = Ok ok ->
  exists P, NoDup P /\ (forall X, In X P <-> frequent df tcol tval (c_min_tp c) (c_min_fp c) (c_min_n c) X) /\
    sdmap_fit c st df tcol tval =
      match P with
      | [] => Ok st
      | _ => fold_res (fun st X => handle_individual_result c (Sel tcol EQUAL (VStr tval)) (TP_of df tcol tval) (FP_of df tcol tval) st
                (X, (tp_of df (Sel tcol EQUAL (VStr tval)) X, fp_of df (Sel tcol EQUAL (VStr tval)) X))) P
               (if c_write c then SDS (st_selected st) (st_unselected st) (Some []) else st)
      end.
Proof.
  intros V c ok df tcol tval st Hcat Hquo Hcol Hok. destruct (sdmap_fit_all V c ok df tcol tval Hcat Hquo Hcol Hok) as (P & A & B & C). exists P. auto.
Qed.
