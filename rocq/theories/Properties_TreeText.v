(** Theorem C80: the texts of FP-trees. *)
From Coq Require Import String ZArith List Bool Lia Sorted.
From Verif Require Import FPTreeModel SDMapProofs FPGrowthProofs3 FPTreeText TreeTextSpec FPTreeTextProofs Properties_SDMap.
Import ListNotations.
Open Scope Z_scope.
Open Scope string_scope.
Open Scope list_scope.

Lemma line_spec : forall addr h e, tree_line addr h e = spec_line addr h e.
Proof.
  intros addr h [i d]. unfold tree_line, spec_line, node_text. cbn [fst snd]. f_equal; [|f_equal].
  - destruct (Z.ltb_spec 0 d) as [H|H], (Z.leb_spec d 0) as [H'|H']; try lia; auto. f_equal. replace (Z.to_nat (d - 1)) with (Z.to_nat d - 1)%nat by lia.
    generalize (Z.to_nat d - 1)%nat. induction n as [|n IH]; [auto|]. cbn [times repeat]. rewrite IH. destruct n; [reflexivity|cbn [repeat String.concat]; reflexivity].
  - destruct (nth_error h i) as [n|]; auto. unfold node_str, counters_str. destruct (nd_link n); rewrite !app_assoc_str; auto.
Qed.
Lemma text_concat : forall ls, text_of ls = String.concat "" ls.
Proof. induction ls as [|x ls IH]; auto. change (text_of (x :: ls)) with (x ++ text_of ls)%string. rewrite IH. destruct ls; [apply app_nil_str|auto]. Qed.
Lemma rep_shows : forall addr t A, represents t A -> forall i k, (i < length (t_nodes t))%nat -> exists L, shows (t_nodes t) i k L /\
  tree_as_str addr (length (t_nodes t)) (t_nodes t) i k = Ok (String.concat "" (map (spec_line addr (t_nodes t)) L)).
Proof.
  intros addr t A R i k Hi. set (dep := fun i => length (path_of A i)). pose proof (rep_forest t A R) as W. fold dep in W.
  exists (preorder (length (t_nodes t)) (t_nodes t) i k). split.
  - split; [|split; [|split; [|split]]].
    + destruct (preorder_head _ dep W (length (t_nodes t)) i k Hi) as (l & -> & _); [lia|auto].
    + apply (preorder_nodup _ dep W).
    + intros j. split; [apply (preorder_fst _ dep W)|apply (preorder_all _ dep W); auto; lia].
    + intros a j d b E Na. eapply preorder_nearest; eauto.
    + intros p n Ip En. apply (preorder_fst _ dep W) in Ip. pose proof (preorder_siblings _ dep W (length (t_nodes t)) i k p Hi ltac:(lia) Ip) as H.
      unfold is_child, children in H. rewrite En in H. auto.
  - rewrite (tree_text addr _ dep W) by (auto; lia). rewrite text_concat. f_equal. f_equal. apply map_ext. apply line_spec.
Qed.

(** * C80 *)
(** The trees of SDMap: the tree of a dataset and every conditional tree made from it, in any number of steps. *)
Lemma sdmap_trees : forall df tcol tval mtp mfp mn d t0 t alpha, categorical df -> distinct_keys df tcol -> has_column df tcol ->
  dataset_tree df tcol tval mtp mfp mn d t0 -> conditioned t0 mtp mfp mn t alpha -> exists A, represents t A.
Proof.
  intros df tcol tval mtp mfp mn d t0 t alpha H1 H2 H3 H4 C.
  destruct (conditioned_inv _ _ _ _ _ _ _ _ H1 H2 H3 H4 t alpha C) as (ok & lt & D & _ & _ & T & _). exists (build D). apply (proj1 T).
Qed.
Theorem C80_tree : forall addr df tcol tval mtp mfp mn d t0 t alpha, categorical df -> distinct_keys df tcol -> has_column df tcol ->
  dataset_tree df tcol tval mtp mfp mn d t0 -> conditioned t0 mtp mfp mn t alpha ->
  exists L, shows (t_nodes t) 0 0 L /\ (forall j, In j (map fst L) <-> (j < length (t_nodes t))%nat) /\
    fptree_as_str addr t = Ok (String.concat "" (map (spec_line addr (t_nodes t)) L)).
Proof.
  intros addr df tcol tval mtp mfp mn d t0 t alpha H1 H2 H3 H4 C. destruct (sdmap_trees _ _ _ _ _ _ _ _ _ _ H1 H2 H3 H4 C) as [A R].
  pose proof (len_paths t A R) as L0. destruct (rep_shows addr t A R 0%nat 0 ltac:(lia)) as (L & S & E). exists L. split; auto. split; auto.
  intros j. destruct S as (_ & _ & S & _). rewrite S. split; [apply (below_bound _ _ (rep_forest t A R)); lia|apply (all_below t A R)].
Qed.
(** The same from any node, with any starting depth. *)
Theorem C80_subtree : forall addr df tcol tval mtp mfp mn d t0 t alpha, categorical df -> distinct_keys df tcol -> has_column df tcol ->
  dataset_tree df tcol tval mtp mfp mn d t0 -> conditioned t0 mtp mfp mn t alpha ->
  forall i k, (i < length (t_nodes t))%nat -> exists L, shows (t_nodes t) i k L /\
    tree_as_str addr (length (t_nodes t)) (t_nodes t) i k = Ok (String.concat "" (map (spec_line addr (t_nodes t)) L)).
Proof.
  intros addr df tcol tval mtp mfp mn d t0 t alpha H1 H2 H3 H4 C. destruct (sdmap_trees _ _ _ _ _ _ _ _ _ _ H1 H2 H3 H4 C) as [A R]. apply (rep_shows addr t A R).
Qed.

(** ** The header table *)
Section Header.
  Variable addr : nat -> Z.
  Lemma node_text_str : forall h i n, nth_error h i = Some n -> node_str addr i n = node_text addr h i.
  Proof. intros h i n E. unfold node_text. rewrite E. unfold node_str, counters_str. destruct (nd_link n); rewrite !app_assoc_str; auto. Qed.
  Lemma follow_text : forall h f i l r, horizontal f h (Some i) = Ok l ->
    follow_links addr f h (Some i) r = Ok (r ++ text_of (map (append " -> ") (map (node_text addr h) (tl l) ++ ["None"%string])))%string.
  Proof.
    intros h. induction f as [|f IH]; intros i l r H; [discriminate|]. cbn [horizontal] in H. cbn [follow_links].
    destruct (nth_error h i) as [n|]; [|discriminate]. destruct (horizontal f h (nd_link n)) as [l'|] eqn:E; [|discriminate]. cbn [bind] in H. injection H as <-.
    cbn [tl]. destruct (nd_link n) as [j|].
    - destruct l' as [|j' l']; [destruct f; cbn [horizontal] in E; [discriminate|]; destruct (nth_error h j); [|discriminate]; destruct (horizontal f h _); discriminate|].
      assert (X : j' = j /\ exists m, nth_error h j = Some m).
      { destruct f; cbn [horizontal] in E; [discriminate|]. destruct (nth_error h j) as [m|]; [|discriminate]. destruct (horizontal f h _); [|discriminate]. cbn [bind] in E. injection E as -> _. split; eauto. }
      destruct X as [-> [m Em]]. cbn [link_str]. rewrite Em. cbn [bind]. rewrite (IH _ _ _ E). rewrite (node_text_str _ _ _ Em).
      cbn [tl map app text_of fold_right]. rewrite !app_assoc_str. auto.
    - destruct f; cbn [horizontal] in E; injection E as <-; cbn; rewrite ?app_nil_str; auto.
  Qed.
  Lemma join_text : forall sep x xs, String.concat sep (x :: xs) = (x ++ text_of (map (append sep) xs))%string.
  Proof.
    intros sep x xs. revert x. induction xs as [|y xs IH]; intros x; [cbn; rewrite app_nil_str; auto|].
    change (String.concat sep (x :: y :: xs)) with (x ++ sep ++ String.concat sep (y :: xs))%string. rewrite IH.
    cbn [map text_of fold_right]. rewrite !app_assoc_str. auto.
  Qed.
End Header.
Lemma links_of : forall t A, represents t A -> forall s e, In (s, e) (t_header t) ->
  hd_error (ids (paths A) s) = Some (he_first e) /\ horizontal (length (t_nodes t)) (t_nodes t) (Some (he_first e)) = Ok (ids (paths A) s) /\
  StronglySorted lt (ids (paths A) s) /\ (forall i, In i (ids (paths A) s) <-> i <> 0%nat /\ exists n, nth_error (t_nodes t) i = Some n /\ nd_sel n = s) /\
  sum_over nd_tp (t_nodes t) (ids (paths A) s) = he_tp e /\ sum_over nd_fp (t_nodes t) (ids (paths A) s) = he_fp e.
Proof.
  intros t A R s e I. pose proof R as (V & L & _ & N & Eh).
  assert (Is : In s (keys (paths A)) /\ e = HE (asum true (fun p => if selector_eq_dec (lastsel p) s then true else false) A)
                       (asum false (fun p => if selector_eq_dec (lastsel p) s then true else false) A)
                       (hd 0%nat (ids (paths A) s)) (last (ids (paths A) s) 0%nat)).
  { rewrite Eh in I. unfold header_of in I. apply in_map_iff in I. destruct I as (s' & E & J). injection E as -> <-. auto. }
  destruct Is as [Is ->]. cbn [he_tp he_fp he_first].
  pose proof (proj1 (ids_nonempty _ _) Is) as Nids.
  assert (Hhd : hd_error (ids (paths A) s) = Some (hd 0%nat (ids (paths A) s))).
  { destruct (ids (paths A) s); [contradiction|reflexivity]. }
  destruct (ids_entries A 1 s) as (E & E1 & E2 & E3). fold (ids (paths A) s) in E1.
  assert (Llen : (length (ids (paths A) s) <= length (t_nodes t))%nat).
  { rewrite L, E1, map_length, <- (map_length snd E), E2. etransitivity; [apply filter_len|lia]. }
  split; auto. split; [rewrite <- Hhd; apply (horizontal_spec t A s R _ [] _ eq_refl Llen)|]. split; [apply ids_from_sorted|]. split.
  - intros i. unfold ids. rewrite ids_from_in. split.
    + intros (j & p & -> & Hj & Hl). split; [lia|]. unfold paths in Hj. rewrite nth_error_map in Hj.
      destruct (nth_error A j) as [[q v]|] eqn:Hq; [|discriminate]. cbn in Hj. injection Hj as ->.
      exists (node_of A j p v). split; [apply (N j p v Hq)|]. exact Hl.
    + intros (Ni & n & Hn & Hs). destruct i as [|j]; [contradiction|]. assert (j < length A)%nat.
      { assert (S j < length (t_nodes t))%nat by (apply nth_error_Some; congruence). lia. }
      destruct (nth_error A j) as [[q v]|] eqn:Hq; [|apply nth_error_None in Hq; lia].
      rewrite (N j q v Hq) in Hn. injection Hn as <-. exists j, q. split; [lia|]. split; [|exact Hs].
      unfold paths. rewrite nth_error_map, Hq. reflexivity.
  - rewrite E1. pose proof (sum_entries true t A R E E3) as S1. pose proof (sum_entries false t A R E E3) as S2. cbn match in S1, S2.
    rewrite S1, S2, E2. clear.
    assert (X : forall k, asum k (fun _ => true) (filter (fun e => if selector_eq_dec (lastsel (fst e)) s then true else false) A) =
      asum k (fun p => if selector_eq_dec (lastsel p) s then true else false) A).
    { intros k. induction A as [|[p w] A IH]; cbn [filter asum fst]; auto. destruct (selector_eq_dec (lastsel p) s); cbn [asum]; rewrite IH; lia. }
    rewrite !X. auto.
Qed.
(** Each selector of the header table has one line, in the order of the table; the nodes on it are all the nodes with that
    selector, oldest first, and their counters add up to the summations; without following the links only the first of them. *)
Theorem C80_header : forall addr df tcol tval mtp mfp mn d t0 t alpha, categorical df -> distinct_keys df tcol -> has_column df tcol ->
  dataset_tree df tcol tval mtp mfp mn d t0 -> conditioned t0 mtp mfp mn t alpha ->
  exists chain : selector -> list nat,
    (forall s e, In (s, e) (t_header t) -> chain s <> [] /\ StronglySorted lt (chain s) /\
       (forall i, In i (chain s) <-> i <> 0%nat /\ exists n, nth_error (t_nodes t) i = Some n /\ nd_sel n = s) /\
       sum_over nd_tp (t_nodes t) (chain s) = he_tp e /\ sum_over nd_fp (t_nodes t) (chain s) = he_fp e) /\
    forall follow, header_table_as_str addr t follow = Ok (String.concat "" (map (header_line addr t follow chain) (t_header t))).
Proof.
  intros addr df tcol tval mtp mfp mn d t0 t alpha H1 H2 H3 H4 C. destruct (sdmap_trees _ _ _ _ _ _ _ _ _ _ H1 H2 H3 H4 C) as [A R].
  exists (ids (paths A)). split.
  - intros s e I. destruct (links_of t A R s e I) as (F & _ & S & M & T). split; [destruct (ids (paths A) s); discriminate|]. auto.
  - intros follow. unfold header_table_as_str. rewrite <- text_concat. pose proof (links_of t A R) as LK.
    assert (G : forall l r, incl l (t_header t) -> fold_res (fun result e =>
      do first <- link_str addr (t_nodes t) (Some (he_first (snd e)));
      let result0 := (result ++ "{selector: " ++ sel_str (fst e) ++ ", ")%string in
      let result1 := (result0 ++ "summations: " ++ counters_str (he_tp (snd e)) (he_fp (snd e)) ++ "} -> " ++ first)%string in
      do result2 <- (if follow then follow_links addr (length (t_nodes t)) (t_nodes t) (Some (he_first (snd e))) result1 else Ok result1);
      Ok (result2 ++ newline)%string) l r = Ok (r ++ text_of (map (header_line addr t follow (ids (paths A))) l))%string); [|apply (G _ ""%string), incl_refl].
    induction l as [|[s e] l IH]; intros r HI; cbn [fold_res map text_of fold_right]; [rewrite app_nil_str; auto|].
    destruct (LK s e (HI _ (or_introl eq_refl))) as (F & HZ & _ & M & _). cbn [fst snd].
    destruct (ids (paths A) s) as [|i0 chain] eqn:Ech; [discriminate|]. cbn [hd_error] in F. injection F as ->.
    destruct (proj1 (M (he_first e)) (or_introl eq_refl)) as (_ & n & En & _). cbn [link_str]. rewrite En. cbn [bind].
    rewrite (node_text_str _ _ _ _ En). unfold header_line at 1. cbn [fst snd]. rewrite Ech. unfold counters_str.
    destruct follow.
    + rewrite (follow_text addr _ _ _ _ _ HZ). cbn [bind tl]. rewrite IH by (intros x Ix; apply HI; right; auto). f_equal.
      cbn [map app]. rewrite join_text, !app_assoc_str. auto.
    + cbn [bind]. rewrite IH by (intros x Ix; apply HI; right; auto). f_equal. cbn [map firstn String.concat]. rewrite !app_assoc_str. auto.
Qed.

(** * A concrete case *)
(** A tree with two branches and a chain of two nodes; node [i] has the identity [100 + i]. *)
Definition nl : string := String "010" "".
Example C80_nonvacuous : exists d t, categorical toy /\ distinct_keys toy "class" /\ has_column toy "class" /\
  dataset_tree toy "class" "p" None None (Some 1) d t /\ conditioned t None None (Some 1) t [] /\
  fptree_as_str (fun i => 100 + Z.of_nat i) t = Ok (
    "{id: 100, selector: None = 'None', counters: [-1, -1], node_link_id: None}" ++ nl ++
    "|--- {id: 101, selector: a = 'x', counters: [2, 1], node_link_id: None}" ++ nl ++
    "    |--- {id: 102, selector: b = 'u', counters: [2, 0], node_link_id: 103}" ++ nl ++
    "    |--- {id: 105, selector: b = 'v', counters: [0, 1], node_link_id: None}" ++ nl ++
    "|--- {id: 103, selector: b = 'u', counters: [0, 1], node_link_id: None}" ++ nl ++
    "    |--- {id: 104, selector: a = 'y', counters: [0, 1], node_link_id: None}" ++ nl)%string /\
  header_table_as_str (fun i => 100 + Z.of_nat i) t true = Ok (
    "{selector: a = 'x', summations: [2, 1]} -> {id: 101, selector: a = 'x', counters: [2, 1], node_link_id: None} -> None" ++ nl ++
    "{selector: b = 'u', summations: [2, 1]} -> {id: 102, selector: b = 'u', counters: [2, 0], node_link_id: 103} -> {id: 103, selector: b = 'u', counters: [0, 1], node_link_id: None} -> None" ++ nl ++
    "{selector: a = 'y', summations: [0, 1]} -> {id: 104, selector: a = 'y', counters: [0, 1], node_link_id: None} -> None" ++ nl ++
    "{selector: b = 'v', summations: [0, 1]} -> {id: 105, selector: b = 'v', counters: [0, 1], node_link_id: None} -> None" ++ nl)%string.
Proof.
  destruct toy_ok as (H1 & H2 & H3). eexists _, _. split; [exact H1|]. split; [exact H2|]. split; [exact H3|]. split; [split; vm_compute; reflexivity|]. split; [constructor|].
  split; vm_compute; reflexivity.
Qed.
Print Assumptions C80_tree. Print Assumptions C80_subtree. Print Assumptions C80_header.
