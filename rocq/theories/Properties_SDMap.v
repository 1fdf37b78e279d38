(** Theorems C25-C28, C53, C54: FP-trees and SDMap. *)
From Verif Require Import SDMapProofs OrderFacts VerticalProofs.
Open Scope string_scope.
Open Scope list_scope.
Open Scope Z_scope.

(** * C25: the tree of a dataset *)
(** The tree that fit builds from the rows. *)
Definition dataset_tree (df : dataframe) (tcol tval : string) (mtp mfp mn : option Z) (d : fdict) (t : fptree) : Prop :=
  generate_set_of_frequent_selectors df tcol (VStr tval) mtp mfp mn = Ok d /\
  build_tree empty_tree df d tcol (VStr tval) = Ok t.
Definition sum_over (f : node -> Z) (h : heap) (ids : list nat) : Z :=
  fold_right (fun i z => match nth_error h i with Some n => f n | None => 0 end + z) 0 ids.

Lemma tree_facts : forall df tcol tval mtp mfp mn d t, categorical df -> distinct_keys df tcol -> has_column df tcol ->
  dataset_tree df tcol tval mtp mfp mn d t ->
  exists ok o, thresholds mtp mfp mn = Ok ok /\ let D := D0 df tcol tval ok o in
    d = dict_of (fun s => tp_of df (Sel tcol EQUAL (VStr tval)) [s]) (fun s => fp_of df (Sel tcol EQUAL (VStr tval)) [s]) o (ks df tcol tval ok) /\
    (forall s t, In s (ks df tcol tval ok) -> In t (ks df tcol tval ok) -> o s = o t -> s = t) /\
    tree_for t D /\ good (Uk df tcol) ok (lt0 df tcol tval o) D /\
    (forall Y, itemset ok D Y <-> Y <> [] /\ NoDup Y /\ (forall s, In s Y -> U df tcol s) /\ (1 <= coverage df Y)%nat /\
       ok (tp_of df (Sel tcol EQUAL (VStr tval)) Y) (fp_of df (Sel tcol EQUAL (VStr tval)) Y) = true) /\
    (forall Y (k : bool), itemset ok D Y -> cnt k D Y = if k then tp_of df (Sel tcol EQUAL (VStr tval)) Y else fp_of df (Sel tcol EQUAL (VStr tval)) Y).
Proof.
  intros df tcol tval mtp mfp mn d t Hcat Hquo Hcol [E1 E2]. unfold generate_set_of_frequent_selectors in E1.
  destruct (thresholds mtp mfp mn) as [ok|] eqn:Hok; [|discriminate]. cbn [bind] in E1.
  destruct (mask_spec df tcol tval Hcat Hcol) as (mask & Hm & _). rewrite Hm in E1. cbn [bind] in E1. injection E1 as <-.
  destruct (thresholds_supported _ _ _ _ Hok) as [Hsup Hmono].
  destruct (dictionary df tcol tval Hcat Hquo Hcol ok mask Hm) as (o & Ed & Ho).
  destruct (build_tree_spec df tcol tval Hcat Hquo Hcol ok mask Hm o Ho) as (t' & Et & Tt).
  rewrite Ed in E2. rewrite E2 in Et. injection Et as <-. exists ok, o. split; auto. cbn zeta. split; [exact Ed|]. split; auto. split; auto.
  split; [apply (good0 df tcol tval Hcat Hquo ok o Ho)|]. pose proof (itemset_rows df tcol tval Hcat Hquo ok o Ho Hmono) as IR.
  split; auto. intros Y k HY. apply cnt_rows; auto. intros y Iy.
  destruct (in_dec selector_eq_dec y (ks df tcol tval ok)) as [|N]; auto. exfalso. destruct HY as (_ & _ & P & _).
  rewrite (cn_zero df tcol tval Hcat Hquo ok o Ho) in P by (intros H; apply N; auto). lia.
Qed.

(** The header table lists exactly the frequent selectors, with their numbers of positive and
    negative rows. *)
Theorem C25_header_totals : forall df tcol tval mtp mfp mn d t, categorical df -> distinct_keys df tcol -> has_column df tcol ->
  dataset_tree df tcol tval mtp mfp mn d t ->
  NoDup (map fst (t_header t)) /\
  (forall s, In s (map fst (t_header t)) <-> frequent df tcol tval mtp mfp mn [s]) /\
  (forall s e, In (s, e) (t_header t) ->
     he_tp e = tp_of df (Sel tcol EQUAL (VStr tval)) [s] /\ he_fp e = fp_of df (Sel tcol EQUAL (VStr tval)) [s]).
Proof.
  intros df tcol tval mtp mfp mn d t Hcat Hquo Hcol HT.
  destruct (tree_facts _ _ _ _ _ _ _ _ Hcat Hquo Hcol HT) as (ok & o & Hok & _ & _ & T & G & IR & CR).
  set (D := D0 df tcol tval ok o) in *. destruct (thresholds_supported _ _ _ _ Hok) as [Hsup Hmono].
  assert (Eh : map fst (t_header t) = keys (paths (build D))).
  { destruct (proj1 T) as (_ & _ & _ & _ & ->). unfold header_of. rewrite map_map. cbn [fst]. apply map_id. }
  rewrite Eh. split; [apply keys_nodup|].
  assert (K : forall s, In s (keys (paths (build D))) <-> itemset ok D [s]).
  { intros s. split; [apply (singleton_itemset (Uk df tcol) ok (lt0 df tcol tval o)); auto|].
    intros H. apply (itemset_keys (Uk df tcol) ok (lt0 df tcol tval o) D [s] G H). left; auto. }
  split.
  - intros s. rewrite K, IR. unfold frequent, description. split.
    + intros (_ & _ & HU & C & Ok). split; [|split; [auto|apply Hsup; auto]]. split; [discriminate|]. split; [repeat constructor|].
      intros x [<-|[]]. apply U_description; auto. apply HU; left; auto.
    + intros ((_ & _ & HU) & C & Sp). split; [discriminate|]. split; [repeat constructor; intros []|]. split; [|split; [auto|apply Hsup; auto]].
      intros x [<-|[]]. apply U_description; auto. apply HU; left; auto.
  - intros s e I. assert (Is : In s (keys (paths (build D)))) by (rewrite <- Eh; change s with (fst (s, e)); apply in_map; auto).
    assert (N : nominal s). { apply K, IR in Is. destruct Is as (_ & _ & HU & _). apply (U_nominal df tcol), HU. left; auto. }
    pose proof (header_tree (Uk df tcol) ok _ t D s G T N) as H. destruct (in_dec _ _ _) as [_|]; [|contradiction].
    assert (X : sel_assoc s (t_header t) = Some e).
    { destruct (proj1 T) as (_ & _ & _ & _ & Hh). rewrite Hh in *. unfold header_of in *. apply in_map_iff in I. destruct I as (s' & E & _). injection E as -> <-.
      rewrite sel_assoc_map; auto.
      - destruct (in_dec _ _ _); [reflexivity|contradiction].
      - apply Forall_forall. intros x Ix. apply K, IR in Ix. destruct Ix as (_ & _ & HU & _). apply (U_nominal df tcol), HU. left; auto. }
    rewrite X in H. injection H as ->. cbn [he_tp he_fp]. apply K in Is. rewrite !CR by auto. auto.
Qed.
Print Assumptions C25_header_totals.

(** The node links of a selector visit each of its nodes once, and the counters of the
    visited nodes add up to the totals of the header table. *)
Lemma sum_entries : forall (k : bool) t A, represents t A -> forall E : list (nat * (path * (Z * Z))),
  Forall (fun x => nth_error A (fst x) = Some (snd x)) E ->
  sum_over (if k then nd_tp else nd_fp) (t_nodes t) (map (fun x => (1 + fst x)%nat) E) = asum k (fun _ => true) (map snd E).
Proof.
  intros k t A R E HE. destruct R as (_ & _ & _ & N & _). induction HE as [|[i [p w]] E H HE IH]; [reflexivity|].
  unfold sum_over in *. cbn [map fold_right fst snd asum Nat.add] in *. rewrite (N i p w H), IH. destruct k; reflexivity.
Qed.
Theorem C25_node_links : forall df tcol tval mtp mfp mn d t, categorical df -> distinct_keys df tcol -> has_column df tcol ->
  dataset_tree df tcol tval mtp mfp mn d t ->
  forall s e, In (s, e) (t_header t) ->
  exists ids, horizontal (length (t_nodes t)) (t_nodes t) (Some (he_first e)) = Ok ids /\ NoDup ids /\
    (forall i, In i ids <-> i <> 0%nat /\ exists n, nth_error (t_nodes t) i = Some n /\ nd_sel n = s) /\
    sum_over nd_tp (t_nodes t) ids = he_tp e /\ sum_over nd_fp (t_nodes t) ids = he_fp e.
Proof.
  intros df tcol tval mtp mfp mn d t Hcat Hquo Hcol HT s e I.
  destruct (tree_facts _ _ _ _ _ _ _ _ Hcat Hquo Hcol HT) as (ok & o & Hok & _ & _ & T & G & _ & _).
  set (D := D0 df tcol tval ok o) in *. pose proof (proj1 T) as R. pose proof R as (V & L & _ & N & Eh).
  exists (ids (paths (build D)) s).
  assert (Is : In s (keys (paths (build D))) /\ e = HE (asum true (fun p => if selector_eq_dec (lastsel p) s then true else false) (build D))
                       (asum false (fun p => if selector_eq_dec (lastsel p) s then true else false) (build D))
                       (hd 0%nat (ids (paths (build D)) s)) (last (ids (paths (build D)) s) 0%nat)).
  { rewrite Eh in I. unfold header_of in I. apply in_map_iff in I. destruct I as (s' & E & J). injection E as -> <-. auto. }
  destruct Is as [Is ->]. cbn [he_tp he_fp he_first].
  pose proof (proj1 (ids_nonempty _ _) Is) as Nids.
  assert (Hhd : hd_error (ids (paths (build D)) s) = Some (hd 0%nat (ids (paths (build D)) s))).
  { destruct (ids (paths (build D)) s); [contradiction|reflexivity]. }
  destruct (ids_entries (build D) 1 s) as (E & E1 & E2 & E3). fold (ids (paths (build D)) s) in E1.
  assert (Llen : (length (ids (paths (build D)) s) <= length (t_nodes t))%nat).
  { rewrite L, E1, map_length, <- (map_length snd E), E2. etransitivity; [apply filter_len|lia]. }
  split; [rewrite <- Hhd; apply (horizontal_spec t (build D) s R _ [] _ eq_refl Llen)|]. split; [|split].
  - pose proof (ids_from_sorted (paths (build D)) 1 s) as SS. fold (ids (paths (build D)) s) in SS. clear -SS.
    induction SS as [|x l SS IH F]; constructor; auto. intros I. rewrite Forall_forall in F. specialize (F x I). lia.
  - intros i. unfold ids. rewrite ids_from_in. split.
    + intros (j & p & -> & Hj & Hl). split; [lia|]. unfold paths in Hj. rewrite nth_error_map in Hj.
      destruct (nth_error (build D) j) as [[q v]|] eqn:Hq; [|discriminate]. cbn in Hj. injection Hj as ->.
      exists (node_of (build D) j p v). split; [apply (N j p v Hq)|]. exact Hl.
    + intros (Ni & n & Hn & Hs). destruct i as [|j]; [contradiction|]. assert (j < length (build D))%nat.
      { assert (S j < length (t_nodes t))%nat by (apply nth_error_Some; congruence). lia. }
      destruct (nth_error (build D) j) as [[q v]|] eqn:Hq; [|apply nth_error_None in Hq; lia].
      rewrite (N j q v Hq) in Hn. injection Hn as <-. exists j, q. split; [lia|]. split; [|exact Hs].
      unfold paths. rewrite nth_error_map, Hq. reflexivity.
  - rewrite E1. pose proof (sum_entries true t (build D) R E E3) as S1. pose proof (sum_entries false t (build D) R E E3) as S2. cbn match in S1, S2.
    rewrite S1, S2, E2. clear. generalize (build D). intros A.
    assert (X : forall k, asum k (fun _ => true) (filter (fun e => if selector_eq_dec (lastsel (fst e)) s then true else false) A) =
      asum k (fun p => if selector_eq_dec (lastsel p) s then true else false) A).
    { intros k. induction A as [|[p w] A IH]; cbn [filter asum fst]; auto. destruct (selector_eq_dec (lastsel p) s); cbn [asum]; rewrite IH; lia. }
    rewrite !X. auto.
Qed.

(** The counters of a node are the numbers of rows whose frequent selectors, most frequent
    first, begin with the path to the node. *)
Fixpoint prefixb (p l : list selector) : bool :=
  match p, l with
  | [], _ => true
  | x :: p', y :: l' => if selector_eq_dec x y then prefixb p' l' else false
  | _, _ => false
  end.
Lemma prefixb_spec : forall p l, prefixb p l = true <-> exists r, l = p ++ r.
Proof.
  induction p as [|x p IH]; intros l; cbn [prefixb]; [split; [intros _; exists l; reflexivity|reflexivity]|]. destruct l as [|y l].
  - split; [discriminate|intros [r H]; discriminate].
  - destruct (selector_eq_dec x y) as [->|N].
    + rewrite IH. split; intros [r H]; exists r; [cbn; congruence|cbn in H; congruence].
    + split; [discriminate|intros [r H]; cbn in H; congruence].
Qed.
Lemma psum_exact : forall k l pre q w, q <> [] ->
  psum k (fun p => if path_eq_dec p (pre ++ q) then true else false) pre l w = if prefixb q l then pr k w else 0.
Proof.
  assert (Z0 : forall k q w l pre, (length q <= length pre)%nat -> psum k (fun p => if path_eq_dec p q then true else false) pre l w = 0).
  { intros k q w. induction l as [|x l IH]; intros pre H; cbn [psum]; auto. rewrite IH by (rewrite app_length; cbn; lia).
    destruct (path_eq_dec (pre ++ [x]) q) as [E|]; [|lia]. apply (f_equal (@length _)) in E. rewrite app_length in E. cbn in E. lia. }
  induction l as [|x l IH]; intros pre q w Nq; cbn [psum]; destruct q as [|y q]; try contradiction; auto.
  cbn [prefixb]. destruct (selector_eq_dec y x) as [->|N].
  - destruct q as [|z q].
    + cbn [prefixb]. destruct (path_eq_dec (pre ++ [x]) (pre ++ [x])); [|contradiction].
      rewrite Z0; [lia|]. rewrite !app_length. cbn. lia.
    + destruct (path_eq_dec (pre ++ [x]) (pre ++ x :: z :: q)) as [E|_]; [exfalso; apply app_inv_head in E; discriminate|].
      rewrite <- (IH (pre ++ [x]) (z :: q) w) by discriminate. rewrite <- app_assoc. cbn [app]. lia.
  - destruct (path_eq_dec (pre ++ [x]) (pre ++ y :: q)) as [E|_]; [exfalso; apply app_inv_head in E; injection E; congruence|].
    enough (forall l pre', (exists r, pre' = pre ++ x :: r) -> psum k (fun p => if path_eq_dec p (pre ++ y :: q) then true else false) pre' l w = 0) as H.
    { rewrite H; [lia|]. exists []. reflexivity. }
    clear -N. induction l as [|z l IH]; intros pre' [r ->]; cbn [psum]; auto.
    destruct (path_eq_dec ((pre ++ x :: r) ++ [z]) (pre ++ y :: q)) as [E|_]; [exfalso; rewrite <- app_assoc in E; apply app_inv_head in E; injection E; congruence|].
    rewrite IH; [lia|]. exists (r ++ [z]). rewrite <- app_assoc. reflexivity.
Qed.
Definition rows_with_prefix (df : dataframe) (keep : nat -> bool) (row_path : nat -> list selector) (q : list selector) : Z :=
  Z.of_nat (length (filter (fun i => keep i && prefixb q (row_path i)) (seq 0 (df_n df)))).
Theorem C25_node_counters : forall df tcol tval mtp mfp mn d t, categorical df -> distinct_keys df tcol -> has_column df tcol ->
  dataset_tree df tcol tval mtp mfp mn d t ->
  let tsel := Sel tcol EQUAL (VStr tval) in
  exists (row_path : nat -> list selector) (before : selector -> selector -> Prop),
    (* one strict order, more frequent selectors first *)
    (forall x, ~ before x x) /\ (forall x y z, before x y -> before y z -> before x z) /\
    (forall x y, frequent df tcol tval mtp mfp mn [x] -> frequent df tcol tval mtp mfp mn [y] -> x = y \/ before x y \/ before y x) /\
    (forall x y, (coverage df [y] < coverage df [x])%nat -> before x y) /\
    (* a row's path: its frequent selectors in that order *)
    (forall i, StronglySorted before (row_path i)) /\
    (forall i s, (i < df_n df)%nat -> (In s (row_path i) <-> frequent df tcol tval mtp mfp mn [s] /\ row_matchesb df i s = true)) /\
    (* the nodes *)
    (forall i n, nth_error (t_nodes t) (S i) = Some n -> exists q,
        path_up (length (t_nodes t)) (t_nodes t) (Some (S i)) = Ok (rev q) /\ q <> [] /\ nd_sel n = last q root_selector /\
        nd_tp n = rows_with_prefix df (fun i => row_matchesb df i tsel) row_path q /\
        nd_fp n = rows_with_prefix df (fun i => negb (row_matchesb df i tsel)) row_path q /\
        0 < nd_tp n + nd_fp n) /\
    (* every path of a row is in the tree, once *)
    (forall i q, (i < df_n df)%nat -> q <> [] -> prefixb q (row_path i) = true ->
        exists! j, path_up (length (t_nodes t)) (t_nodes t) (Some (S j)) = Ok (rev q)).
Proof.
  intros df tcol tval mtp mfp mn d t Hcat Hquo Hcol HT tsel.
  destruct (tree_facts _ _ _ _ _ _ _ _ Hcat Hquo Hcol HT) as (ok & o & Hok & Ed & Ho & T & G & IR & CR).
  destruct (thresholds_supported _ _ _ _ Hok) as [Hsup Hmono].
  set (D := D0 df tcol tval ok o) in *. pose proof (proj1 T) as R. pose proof R as (V & L & _ & N & Eh).
  set (rp := row_trans df tcol tval ok o).
  pose proof (row_trans_spec df tcol tval Hcat Hquo ok o Ho) as RT.
  assert (FK : forall s, (exists i, (i < df_n df)%nat /\ row_matchesb df i s = true) -> (In s (ks df tcol tval ok) <-> frequent df tcol tval mtp mfp mn [s])).
  { intros s (i & Hi & Hm). 
    assert (Cv : U df tcol s -> (1 <= coverage df [s])%nat).
    { intros _. unfold coverage. assert (In i (filter (fun i => forallb (row_matchesb df i) [s]) (seq 0 (df_n df)))).
      { apply filter_In. split; [apply in_seq; lia|]. cbn [forallb]. rewrite Hm. reflexivity. }
      destruct (filter _ _); [destruct H|cbn; lia]. }
    split.
    - intros I. pose proof (ks_U df tcol tval Hcat ok s I) as HU. apply filter_In in I. destruct I as [_ I].
      split; [split; [discriminate|split; [repeat constructor|intros x [<-|[]]; apply U_description; auto]]|]. split; auto. apply Hsup; auto.
    - intros ((_ & _ & HU) & C & Sp). assert (Us : U df tcol s) by (apply U_description; auto; apply HU; left; auto).
      apply filter_In. split; [apply (matching_in df tcol tval Hcat ok i); auto|]. apply Hsup; auto. }
  assert (FK2 : forall s, frequent df tcol tval mtp mfp mn [s] -> In s (ks df tcol tval ok)).
  { intros s F. apply FK; auto. destruct F as (_ & C & _). unfold coverage in C.
    destruct (filter (fun i => forallb (row_matchesb df i) [s]) (seq 0 (df_n df))) as [|i l] eqn:E; [cbn in C; lia|].
    assert (I : In i (i :: l)) by (left; auto). rewrite <- E in I. apply filter_In in I. destruct I as [I1 I2]. apply in_seq in I1.
    exists i. split; [lia|]. cbn [forallb] in I2. rewrite andb_true_r in I2. auto. }
  assert (Tot : forall s, (tp_of df tsel [s] + fp_of df tsel [s])%Z = Z.of_nat (coverage df [s])).
  { intros s. rewrite <- (pos_neg_cover df tsel). unfold tp_of, fp_of. lia. }
  exists rp, (lt0 df tcol tval o). split; [intros x; apply ltd_irrefl|]. split; [intros x y z; apply ltd_trans|].
  split; [|split; [|split; [|split; [|split]]]].
  - intros x y Fx Fy. apply FK2 in Fx, Fy. unfold lt0, ltd. fold tsel.
    destruct (Z.lt_trichotomy (tp_of df tsel [x] + fp_of df tsel [x]) (tp_of df tsel [y] + fp_of df tsel [y])) as [A|[A|A]]; [right; right; left; lia| |right; left; left; lia].
    destruct (Z.lt_trichotomy (o x) (o y)) as [B|[B|B]]; [right; left; right; split; lia|left; auto|right; right; right; split; lia].
  - intros x y H. unfold lt0, ltd. left. fold tsel. rewrite !Tot. lia.
  - intros i. apply RT.
  - intros i s Hi. split.
    + intros I. apply RT in I. destruct I as [I M]. split; auto. apply FK; auto. exists i; auto.
    + intros [F M]. apply RT. split; auto.
  - intros i n Hn. assert (Hi : (i < length (build D))%nat).
    { assert (S i < length (t_nodes t))%nat by (apply nth_error_Some; congruence). lia. }
    destruct (nth_error (build D) i) as [[q v]|] eqn:Hq; [|apply nth_error_None in Hq; lia].
    rewrite (N i q v Hq) in Hn. injection Hn as <-. exists q. cbn [node_of nd_sel nd_tp nd_fp].
    assert (Iq : In q (paths (build D))) by (unfold paths; change q with (fst (q, v)); apply in_map, (nth_error_In _ _ Hq)).
    assert (Nq : q <> []) by (intros ->; apply (proj1 (proj2 V)); auto).
    assert (Pq : pid (paths (build D)) q = Some (S i)).
    { apply pid_node; [apply V|auto|]. unfold paths. rewrite nth_error_map, Hq. reflexivity. }
    assert (Lq : (length q <= length (t_nodes t))%nat).
    { pose proof (paths_length _ q V (or_intror Iq)) as X. unfold paths in X. rewrite map_length in X. lia. }
    assert (Cq : forall k, pr k v = rows_with_prefix df (fun i => if k then row_matchesb df i tsel else negb (row_matchesb df i tsel)) rp q).
    { intros k. assert (E1 : pr k v = asum k (fun p => if path_eq_dec p q then true else false) (build D)).
      { clear -Hq V. destruct V as (ND & _). revert i Hq ND. generalize (build D). intros B. induction B as [|[p w] A IH]; intros i Hq ND; [destruct i; discriminate|].
        cbn [asum paths map fst] in *. inversion ND; subst. destruct i as [|i]; cbn in Hq.
        - injection Hq as -> ->. destruct (path_eq_dec q q); [|contradiction].
          enough (asum k (fun p => if path_eq_dec p q then true else false) A = 0) by lia.
          clear -H1. induction A as [|[p w] A IH]; cbn [asum map fst In] in *; auto. destruct (path_eq_dec p q); [elim H1; auto|]. rewrite IH; auto.
        - destruct (path_eq_dec p q) as [->|]; [elim H1; apply nth_error_In in Hq; change q with (fst (q, v)); apply in_map; auto|].
          rewrite (IH i Hq H2). lia. }
      rewrite E1. unfold build. rewrite asum_build_from. change (asum k _ []) with 0. rewrite Z.add_0_l.
      unfold D, D0, rows_with_prefix. fold rp. induction (seq 0 (df_n df)) as [|j l IH]; [reflexivity|].
      cbn [map fold_right fst snd filter]. rewrite IH. pose proof (psum_exact k (rp j) [] q (row_weight df tcol tval j) Nq) as PE. cbn [app] in PE. fold rp. rewrite PE.
      unfold row_weight. fold tsel. destruct k, (row_matchesb df j tsel), (prefixb q (rp j)); cbn [negb andb length pr fst snd]; lia. }
    split; [apply (path_up_spec t (build D) R); auto|]. split; auto. split; [reflexivity|]. split; [apply (Cq true)|]. split; [apply (Cq false)|].
    assert (W : weight_ok v) by (apply (build_in D q v); [apply (nth_error_In _ _ Hq)|apply G]). unfold weight_ok in W. lia.
  - intros i q Hi Nq P. apply prefixb_spec in P. destruct P as [r Hr].
    assert (Iq : In q (paths (build D))).
    { apply paths_build. split; auto. exists (rp i, row_weight df tcol tval i). split; [|exists r; auto].
      unfold D, D0. fold rp. apply in_map_iff. exists i. split; auto. apply in_seq. lia. }
    destruct (In_nth_error _ _ Iq) as [j Hj].
    assert (PU : forall j' q', nth_error (paths (build D)) j' = Some q' -> path_up (length (t_nodes t)) (t_nodes t) (Some (S j')) = Ok (rev q')).
    { intros j' q' H'. assert (I' : In q' (paths (build D))) by (apply nth_error_In in H'; auto).
      apply (path_up_spec t (build D) R); auto.
      - apply pid_node; [apply V| |auto]. intros ->. apply (proj1 (proj2 V)); auto.
      - pose proof (paths_length _ q' V (or_intror I')) as X. unfold paths in X. rewrite map_length in X. lia. }
    exists j. split; [apply PU; auto|]. intros j' H'.
    destruct (nth_error (paths (build D)) j') as [q'|] eqn:E'.
    + rewrite (PU _ _ E') in H'. injection H' as H'. apply (f_equal (@rev _)) in H'. rewrite !rev_involutive in H'. subst q'.
      apply (proj1 (NoDup_nth_error (paths (build D))) (proj1 V)); [apply nth_error_Some; congruence|congruence].
    + exfalso. apply nth_error_None in E'. unfold paths in E'. rewrite map_length in E'. destruct (length (t_nodes t)) eqn:Lt; [lia|].
      cbn [path_up] in H'. destruct (nth_error (t_nodes t) (S j')) eqn:X; [|discriminate]. assert (S j' < length (t_nodes t))%nat by (apply nth_error_Some; congruence). lia.
Qed.
Print Assumptions C25_node_links. Print Assumptions C25_node_counters.

(** * C26: conditional trees *)
(** The trees reached from the tree of the dataset by conditioning on selectors of the header
    table, with the selectors conditioned on so far (last one first). *)
Inductive conditioned (t0 : fptree) (mtp mfp mn : option Z) : fptree -> list selector -> Prop :=
| cond_start : conditioned t0 mtp mfp mn t0 []
| cond_step : forall t alpha s ct, conditioned t0 mtp mfp mn t alpha -> In s (map fst (t_header t)) ->
    generate_conditional_fp_tree t (s :: alpha) mtp mfp mn = Ok ct ->
    conditioned t0 mtp mfp mn ct (s :: alpha).
(** Count of a set of selectors in a tree: the sum of the counters of the nodes that complete
    the set, that is, the nodes of one of its selectors with all the others above. *)
Definition tree_count (f : node -> Z) (t : fptree) (Y : list selector) : Z :=
  fold_right (fun i z => match nth_error (t_nodes t) i, path_up (length (t_nodes t)) (t_nodes t) (Some i) with
                         | Some n, Ok p => if inb (nd_sel n) Y && forallb (fun y => inb y p) Y then f n + z else z
                         | _, _ => z
                         end) 0 (seq 1 (length (t_nodes t) - 1)).

Definition completes (Y : list selector) (p : path) : bool := inb (lastsel p) Y && subb Y p.
Lemma subb_app : forall Y a b, subb Y a = true -> subb Y (a ++ b) = true.
Proof. intros Y a b. rewrite !subb_true. intros H y Iy. apply in_or_app; auto. Qed.
Lemma psum_after : forall k Y l pre w, NoDup (pre ++ l) -> subb Y pre = true -> psum k (completes Y) pre l w = 0.
Proof.
  intros k Y. induction l as [|x l IH]; intros pre w ND H; cbn [psum]; auto.
  rewrite IH; [|rewrite <- app_assoc; auto|apply subb_app; auto]. unfold completes. rewrite lastsel_app.
  replace (inb x Y) with false; [reflexivity|]. symmetry. apply inb_false. intros I. rewrite subb_true in H.
  apply NoDup_remove_2 in ND. apply ND, in_or_app. auto.
Qed.
Lemma psum_completes : forall k Y l pre w, NoDup (pre ++ l) -> subb Y pre = false ->
  psum k (completes Y) pre l w = if subb Y (pre ++ l) then pr k w else 0.
Proof.
  intros k Y. induction l as [|x l IH]; intros pre w ND H; cbn [psum]; [rewrite app_nil_r, H; auto|].
  unfold completes at 1. rewrite lastsel_app. destruct (subb Y (pre ++ [x])) eqn:E.
  - assert (Ix : In x Y).
    { destruct (in_dec selector_eq_dec x Y) as [|N]; auto. exfalso. apply not_true_iff_false in H. apply H. rewrite subb_true in *.
      intros y Iy. specialize (E y Iy). apply in_app_or in E. destruct E as [|[<-|[]]]; auto. contradiction. }
    apply inb_true in Ix. rewrite Ix. cbn [andb]. rewrite psum_after; [|rewrite <- app_assoc; auto|auto].
    replace (subb Y (pre ++ x :: l)) with true; [lia|]. symmetry. change (x :: l) with ([x] ++ l). rewrite app_assoc. apply subb_app; auto.
  - rewrite andb_false_r. rewrite IH; [|rewrite <- app_assoc; auto|auto]. rewrite <- app_assoc. cbn [app]. lia.
Qed.
Lemma completes_build : forall k Y D, Y <> [] -> (forall e, In e D -> NoDup (fst e)) -> asum k (completes Y) (build D) = cnt k D Y.
Proof.
  intros k Y D NY H. unfold build. rewrite asum_build_from. change (asum k _ []) with 0. rewrite Z.add_0_l. unfold cnt.
  induction D as [|[p w] D IH]; [reflexivity|]. cbn [fold_right fst snd asum]. rewrite IH by (intros; apply H; right; auto).
  rewrite psum_completes; [reflexivity|apply (H (p, w)); left; auto|]. apply subb_nil; auto.
Qed.
Lemma tree_count_cnt : forall (k : bool) t D Y, represents t (build D) -> Y <> [] -> (forall e, In e D -> NoDup (fst e)) ->
  tree_count (if k then nd_tp else nd_fp) t Y = cnt k D Y.
Proof.
  intros k t D Y R NY H. rewrite <- completes_build by auto. pose proof R as (V & L & _ & N & _). unfold tree_count.
  assert (PU : forall j q, nth_error (paths (build D)) j = Some q -> path_up (length (t_nodes t)) (t_nodes t) (Some (S j)) = Ok (rev q)).
  { intros j q Hj. assert (I : In q (paths (build D))) by (apply nth_error_In in Hj; auto). apply (path_up_spec t (build D) R); auto.
    - apply pid_node; [apply V| |auto]. intros ->. apply (proj1 (proj2 V)); auto.
    - pose proof (paths_length _ q V (or_intror I)) as X. unfold paths in X. rewrite map_length in X. lia. }
  rewrite L. replace (S (length (build D)) - 1)%nat with (length (build D)) by lia. rewrite <- L. clear L.
  assert (G : forall A k0, (forall i p v, nth_error A i = Some (p, v) -> nth_error (build D) (k0 + i) = Some (p, v)) ->
    fold_right (fun i z => match nth_error (t_nodes t) i, path_up (length (t_nodes t)) (t_nodes t) (Some i) with
                         | Some n, Ok p => if inb (nd_sel n) Y && forallb (fun y => inb y p) Y then (if k then nd_tp else nd_fp) n + z else z
                         | _, _ => z
                         end) 0 (seq (S k0) (length A)) = asum k (completes Y) A).
  { induction A as [|[p v] A IH]; intros k0 HA; [reflexivity|]. cbn [length seq fold_right asum].
    rewrite (IH (S k0)) by (intros i q u Hi; rewrite <- (HA (S i) q u Hi); f_equal; lia).
    pose proof (HA 0%nat p v eq_refl) as H0. rewrite Nat.add_0_r in H0. rewrite (N _ _ _ H0), (PU k0 p).
    2: { unfold paths. rewrite nth_error_map, H0. reflexivity. }
    cbn [node_of nd_sel]. unfold completes. replace (forallb (fun y => inb y (rev p)) Y) with (subb Y p).
    2: { apply bool_iff. unfold subb. rewrite !forallb_forall. split; intros F y Iy; specialize (F y Iy); rewrite inb_true in *; [apply in_rev; rewrite rev_involutive|apply in_rev in F]; auto. }
    destruct (inb (lastsel p) Y && subb Y p); destruct k; cbn [nd_tp nd_fp node_of pr]; lia. }
  apply G. intros i p v Hi. exact Hi.
Qed.

Definition side (k : bool) df tcol tval X := if k then tp_of df (Sel tcol EQUAL (VStr tval)) X else fp_of df (Sel tcol EQUAL (VStr tval)) X.
Lemma side_perm : forall k df tcol tval X Y, (forall s, In s X <-> In s Y) -> side k df tcol tval X = side k df tcol tval Y.
Proof. intros k df tcol tval X Y E. destruct (counts_perm df (Sel tcol EQUAL (VStr tval)) X Y E) as (E1 & E2 & _). destruct k; auto. Qed.
Lemma conditioned_inv : forall df tcol tval mtp mfp mn d t0, categorical df -> distinct_keys df tcol -> has_column df tcol ->
  dataset_tree df tcol tval mtp mfp mn d t0 ->
  forall t alpha, conditioned t0 mtp mfp mn t alpha ->
  exists ok lt D, thresholds mtp mfp mn = Ok ok /\ good (Uk df tcol) ok lt D /\ tree_for t D /\
    (forall k Y, Y <> [] -> incl Y (keys (paths (build D))) -> cnt k D Y = side k df tcol tval (Y ++ alpha)) /\
    NoDup alpha /\ (forall s, In s alpha -> U df tcol s) /\ (forall s, In s alpha -> ~ In s (keys (paths (build D)))).
Proof.
  intros df tcol tval mtp mfp mn d t0 Hcat Hquo Hcol HT t alpha C.
  destruct (tree_facts _ _ _ _ _ _ _ _ Hcat Hquo Hcol HT) as (ok & o & Hok & _ & Ho & T & G & IR & CR).
  destruct (thresholds_supported _ _ _ _ Hok) as [Hsup Hmono].
  induction C as [|t alpha s ct C IH Is E].
  - exists ok, (lt0 df tcol tval o), (D0 df tcol tval ok o). split; auto. split; auto. split; auto. split; [|split; [constructor|split; intros s []]].
    intros k Y NY IY. rewrite app_nil_r. unfold side. apply (cnt_rows df tcol tval Hcat Hquo ok o Ho k).
    intros y Iy. apply IY, keys_build in Iy. destruct Iy as (e & Ie & Iy). unfold D0 in Ie. apply in_map_iff in Ie. destruct Ie as (i & <- & _).
    apply (row_trans_spec df tcol tval Hcat Hquo ok o Ho i) in Iy. tauto.
  - destruct IH as (ok' & lt & D & Hok' & GD & TD & CD & ND & AU & AK). rewrite Hok in Hok'. injection Hok' as <-.
    assert (Is' : In s (keys (paths (build D)))).
    { destruct (proj1 TD) as (_ & _ & _ & _ & Eh). rewrite Eh in Is. unfold header_of in Is. rewrite map_map in Is. cbn [fst] in Is. rewrite map_id in Is. auto. }
    destruct (conditional_spec (Uk df tcol) (Uk_nominal df tcol) (U_key df tcol Hquo) ok Hmono lt t D s alpha mtp mfp mn GD TD Is' Hok)
      as (ct' & D' & lt' & E' & G' & T' & K' & _ & _ & C').
    rewrite E in E'. injection E' as <-. exists ok, lt', D'. split; auto. split; auto. split; auto. split; [|split; [|split]].
    + intros k Y NY IY. destruct (C' k Y NY IY) as [L ->]. rewrite (cpr_max (Uk df tcol) ok lt D s Y k GD L). rewrite CD.
      * rewrite <- app_assoc. reflexivity.
      * destruct Y; discriminate.
      * intros y Iy. apply in_app_or in Iy. destruct Iy as [Iy|[<-|[]]]; auto. apply K'; auto.
    + constructor; auto. intros I. apply (AK s I); auto.
    + intros x [<-|Ix]; auto. apply keys_build in Is'. destruct Is' as (e & Ie & Ix). destruct GD as (_ & GU & _). apply Uk_U, (GU e); auto.
    + intros x [<-|Ix] I; apply K' in I; [destruct I; congruence|]. apply (AK x Ix); tauto.
Qed.

(** The counts in a conditional tree are the counts of the extended description in the
    dataset: for the entries of its header table and for any set of its selectors. *)
Theorem C26_conditional_header : forall df tcol tval mtp mfp mn d t0, categorical df -> distinct_keys df tcol -> has_column df tcol ->
  dataset_tree df tcol tval mtp mfp mn d t0 ->
  forall t alpha, conditioned t0 mtp mfp mn t alpha ->
  forall s e, In (s, e) (t_header t) ->
    ~ In s alpha /\
    he_tp e = tp_of df (Sel tcol EQUAL (VStr tval)) (s :: alpha) /\
    he_fp e = fp_of df (Sel tcol EQUAL (VStr tval)) (s :: alpha) /\
    frequent df tcol tval mtp mfp mn (pattern_init (s :: alpha)).
Proof.
  intros df tcol tval mtp mfp mn d t0 Hcat Hquo Hcol HT t alpha C s e I.
  destruct (conditioned_inv _ _ _ _ _ _ _ _ Hcat Hquo Hcol HT t alpha C) as (ok & lt & D & Hok & G & T & CD & ND & AU & AK).
  destruct (thresholds_supported _ _ _ _ Hok) as [Hsup Hmono].
  pose proof (proj1 T) as (_ & _ & _ & _ & Eh).
  assert (Is : In s (keys (paths (build D)))).
  { rewrite Eh in I. unfold header_of in I. apply in_map_iff in I. destruct I as (s' & E & J). injection E as -> _. auto. }
  assert (HU : U df tcol s). { pose proof Is as Is'. apply keys_build in Is'. destruct Is' as (e0 & Ie & Ix). destruct G as (_ & GU & _). apply Uk_U, (GU e0); auto. }
  assert (He : he_tp e = cnt true D [s] /\ he_fp e = cnt false D [s]).
  { rewrite Eh in I. unfold header_of in I. apply in_map_iff in I. destruct I as (s' & E & J). injection E as -> <-. cbn [he_tp he_fp].
    pose proof (header_tree (Uk df tcol) ok lt t D s G T (U_nominal df tcol s HU)) as H.
    rewrite (header_lookup t (build D) s (proj1 T) (U_nominal df tcol s HU)) in H. destruct (in_dec _ _ _); [|contradiction]. injection H as -> ->. auto. }
  assert (NI : ~ In s alpha) by (intros Ia; apply (AK s Ia); auto).
  assert (Cs : forall k, cnt k D [s] = side k df tcol tval (s :: alpha)) by (intros k; apply (CD k [s]); [discriminate|intros x [<-|[]]; auto]).
  destruct He as [E1 E2]. split; auto. split; [rewrite E1; apply (Cs true)|]. split; [rewrite E2; apply (Cs false)|].
  pose proof (singleton_itemset (Uk df tcol) ok lt D s G Is) as (_ & _ & P & Ok). unfold cn in P. rewrite !Cs in P, Ok. cbn [side] in P, Ok.
  assert (HN : Forall nominal (s :: alpha)) by (apply Forall_forall; intros x [<-|Ix]; apply (U_nominal df tcol); auto).
  destruct (pattern_nominal (s :: alpha) ltac:(constructor; auto) HN) as [Pm Sm].
  assert (Ein : forall x, In x (s :: alpha) <-> In x (pattern_init (s :: alpha))).
  { intros x. split; apply Permutation_in; [|apply Permutation_sym]; auto. }
  destruct (counts_perm df (Sel tcol EQUAL (VStr tval)) _ _ Ein) as (F1 & F2 & F3).
  split; [split; [|split; auto]|].
  - intros X. rewrite X in Pm. apply Permutation_sym, Permutation_nil in Pm. discriminate.
  - intros x Ix. apply Ein in Ix. apply (U_description df tcol Hcat). destruct Ix as [<-|Ix]; auto.
  - rewrite <- F1, <- F2, <- F3. split; [|apply Hsup; auto]. rewrite <- (pos_neg_cover df (Sel tcol EQUAL (VStr tval))). unfold tp_of, fp_of in P. lia.
Qed.
Theorem C26_conditional_counts : forall df tcol tval mtp mfp mn d t0, categorical df -> distinct_keys df tcol -> has_column df tcol ->
  dataset_tree df tcol tval mtp mfp mn d t0 ->
  forall t alpha, conditioned t0 mtp mfp mn t alpha ->
  forall Y, Y <> [] -> incl Y (map fst (t_header t)) ->
    tree_count nd_tp t Y = tp_of df (Sel tcol EQUAL (VStr tval)) (Y ++ alpha) /\
    tree_count nd_fp t Y = fp_of df (Sel tcol EQUAL (VStr tval)) (Y ++ alpha).
Proof.
  intros df tcol tval mtp mfp mn d t0 Hcat Hquo Hcol HT t alpha C Y NY IY.
  destruct (conditioned_inv _ _ _ _ _ _ _ _ Hcat Hquo Hcol HT t alpha C) as (ok & lt & D & Hok & G & T & CD & ND & AU & AK).
  pose proof (proj1 T) as (_ & _ & _ & _ & Eh). rewrite Eh in IY. unfold header_of in IY. rewrite map_map in IY. cbn [fst] in IY. rewrite map_id in IY.
  split.
  - rewrite (tree_count_cnt true t D Y (proj1 T) NY) by (apply (good_nodup (Uk df tcol) ok lt); auto). apply (CD true Y NY IY).
  - rewrite (tree_count_cnt false t D Y (proj1 T) NY) by (apply (good_nodup (Uk df tcol) ok lt); auto). apply (CD false Y NY IY).
Qed.
(** Conditioning always succeeds, and every frequent description is met as selector of the
    header table of a tree conditioned on its other selectors. *)
Theorem C26_conditional_complete : forall df tcol tval mtp mfp mn d t0, categorical df -> distinct_keys df tcol -> has_column df tcol ->
  dataset_tree df tcol tval mtp mfp mn d t0 ->
  (forall t alpha s, conditioned t0 mtp mfp mn t alpha -> In s (map fst (t_header t)) ->
     exists ct, generate_conditional_fp_tree t (s :: alpha) mtp mfp mn = Ok ct) /\
  (forall X, frequent df tcol tval mtp mfp mn X ->
     exists t alpha s, conditioned t0 mtp mfp mn t alpha /\ In s (map fst (t_header t)) /\ Permutation X (s :: alpha)).
Proof.
  intros df tcol tval mtp mfp mn d t0 Hcat Hquo Hcol HT.
  destruct (tree_facts _ _ _ _ _ _ _ _ Hcat Hquo Hcol HT) as (ok & o & Hok & _ & Ho & T & G & IR & CR).
  destruct (thresholds_supported _ _ _ _ Hok) as [Hsup Hmono].
  assert (EK : forall t D, tree_for t D -> map fst (t_header t) = keys (paths (build D))).
  { intros t D ((_ & _ & _ & _ & Eh) & _). rewrite Eh. unfold header_of. rewrite map_map. cbn [fst]. apply map_id. }
  split.
  - intros t alpha s C Is.
    destruct (conditioned_inv _ _ _ _ _ _ _ _ Hcat Hquo Hcol HT t alpha C) as (ok' & lt & D & Hok' & GD & TD & _).
    rewrite Hok in Hok'. injection Hok' as <-. rewrite (EK t D TD) in Is.
    destruct (conditional_spec (Uk df tcol) (Uk_nominal df tcol) (U_key df tcol Hquo) ok Hmono lt t D s alpha mtp mfp mn GD TD Is Hok) as (ct & D' & lt' & E & _).
    exists ct; auto.
  - assert (Main : forall n Y t alpha lt D, length Y = n -> conditioned t0 mtp mfp mn t alpha -> good (Uk df tcol) ok lt D -> tree_for t D ->
       itemset ok D Y -> exists t' alpha' s, conditioned t0 mtp mfp mn t' alpha' /\ In s (map fst (t_header t')) /\ Permutation (Y ++ alpha) (s :: alpha')).
    { induction n as [|n IH]; intros Y t alpha lt D Ln C GD TD HY.
      - destruct HY as (NY & _). destruct Y; [contradiction|discriminate].
      - destruct (max_of (Uk df tcol) ok lt D Y GD HY) as (s & Z & P & Is & L).
        destruct Z as [|z Z].
        + exists t, alpha, s. split; auto. split; [rewrite (EK t D TD); auto|]. apply (Permutation_app_tail alpha) in P. exact P.
        + destruct (conditional_spec (Uk df tcol) (Uk_nominal df tcol) (U_key df tcol Hquo) ok Hmono lt t D s alpha mtp mfp mn GD TD Is Hok)
            as (ct & D' & lt' & E & G' & T' & K' & C' & I' & _).
          assert (HZ : itemset ok D' (z :: Z)).
          { apply I'. pose proof (itemset_perm ok D _ _ P HY) as (A1 & A2 & A3 & A4). unfold cn in A3.
            rewrite !(cpr_max (Uk df tcol) ok lt D s (z :: Z) _ GD L). split; [discriminate|]. split; [|auto].
            apply NoDup_remove_1 in A2. rewrite app_nil_r in A2. auto. }
          destruct (IH (z :: Z) ct (s :: alpha) lt' D') as (t' & alpha' & s' & C1 & C2 & C3); auto.
          * apply Permutation_length in P. rewrite app_length in P. cbn in *. lia.
          * apply cond_step with (t := t); auto. rewrite (EK t D TD); auto.
          * exists t', alpha', s'. split; auto. split; auto. eapply Permutation_trans; [|exact C3].
            eapply Permutation_trans; [apply Permutation_app_tail, P|]. rewrite <- app_assoc. reflexivity. }
    intros X ((NX & SX & DX) & Cv & Sp).
    assert (HU : forall s, In s X -> U df tcol s) by (intros s Is; apply U_description; auto).
    assert (HN : Forall nominal X) by (apply Forall_forall; intros s Is; apply (U_nominal df tcol); auto).
    destruct (Main (length X) X t0 [] (lt0 df tcol tval o) (D0 df tcol tval ok o) eq_refl (cond_start _ _ _ _) G T) as (t & alpha & s & C1 & C2 & C3).
    { apply IR. split; auto. split; [apply sorted_nodup_nominal; auto|]. split; auto. split; auto. apply Hsup; auto. }
    rewrite app_nil_r in C3. exists t, alpha, s. auto.
Qed.
Print Assumptions C26_conditional_header. Print Assumptions C26_conditional_counts. Print Assumptions C26_conditional_complete.

(** * C27: what fit reports *)
(** A frequent description has at most one selector per column. *)
Theorem C27_one_selector_per_column : forall df tcol tval mtp mfp mn X, categorical df ->
  frequent df tcol tval mtp mfp mn X -> NoDup (map s_attr X).
Proof.
  intros df tcol tval mtp mfp mn X Hcat ((NX & SX & DX) & C & _).
  assert (HN : Forall nominal X) by (apply Forall_forall; intros s Is; apply (U_nominal df tcol), U_description; auto).
  pose proof (sorted_nodup_nominal X HN SX) as ND.
  unfold coverage in C. destruct (filter (fun i => forallb (row_matchesb df i) X) (seq 0 (df_n df))) as [|i l] eqn:E; [cbn in C; lia|].
  assert (I : In i (i :: l)) by (left; auto). rewrite <- E in I. apply filter_In in I. destruct I as [_ I]. rewrite forallb_forall in I. clear E C NX SX DX.
  induction X as [|x X IH]; cbn [map]; constructor.
  - intros J. apply in_map_iff in J. destruct J as (y & Ey & Iy). inversion HN; subst. rewrite Forall_forall in H2.
    pose proof (I x (or_introl eq_refl)) as M1. pose proof (I y (or_intror Iy)) as M2.
    apply row_match_cell in M1; auto. apply row_match_cell in M2; auto. rewrite Ey in M2.
    destruct x as [a op v], y as [b op' w]. pose proof (H2 _ Iy) as [O' _]. destruct H1 as [O _]. cbn in *. subst. inversion ND; subst. apply H1. congruence.
  - inversion HN; subst. inversion ND; subst. apply IH; auto. intros; apply I; right; auto.
Qed.

Lemma fit_thresholds : forall V (c : sd_config V) st df tcol tval st', categorical df ->
  sdmap_fit c st df tcol tval = Ok st' -> exists ok, thresholds (c_min_tp c) (c_min_fp c) (c_min_n c) = Ok ok.
Proof.
  intros V c st df tcol tval st' Hcat E. unfold sdmap_fit in E. rewrite all_str_columns in E by auto. cbn [negb] in E.
  unfold generate_set_of_frequent_selectors in E. destruct (thresholds _ _ _) as [ok|]; [eauto|discriminate].
Qed.
(** The file after a fit: exactly one line per frequent description of sufficient quality,
    with its true numbers. *)
Theorem C27_sound_and_complete : forall V (c : sd_config V) df tcol tval st st',
  categorical df -> distinct_keys df tcol -> has_column df tcol -> c_write c = true ->
  sdmap_fit c st df tcol tval = Ok st' ->
  (exists X, frequent df tcol tval (c_min_tp c) (c_min_fp c) (c_min_n c) X) ->
  exists ls, st_file st' = Some ls /\ NoDup (map r_subgroup ls) /\
    forall r, In r ls <-> exists X q, frequent df tcol tval (c_min_tp c) (c_min_fp c) (c_min_n c) X /\
      quality (c_measure c) df tcol tval X = Ok q /\ c_reaches c q = true /\ r = line_of df tcol tval X q.
Proof.
  intros V c df tcol tval st st' Hcat Hquo Hcol Hw E [X0 HX0].
  destruct (fit_thresholds _ _ _ _ _ _ _ Hcat E) as [ok Hok].
  destruct (sdmap_fit_spec V c ok df tcol tval st Hcat Hquo Hcol Hok) as (P & NP & HP & EP).
  rewrite EP in E. destruct P as [|X P]; [apply HP in HX0; destruct HX0|]. remember (X :: P) as Q eqn:EQ. clear EQ EP X P.
  rewrite Hw in E. set (tp := tp_of df (Sel tcol EQUAL (VStr tval))) in *. set (fp := fp_of df (Sel tcol EQUAL (VStr tval))) in *.
  pose proof (handle_err c (Sel tcol EQUAL (VStr tval)) (TP_of df tcol tval) (FP_of df tcol tval) tp fp Q _ (ex_intro _ st' E)) as Hq.
  rewrite (handle_ok c _ _ _ tp fp) in E by auto. injection E as <-. cbn [st_file]. rewrite Hw. cbn [app].
  eexists. split; [reflexivity|]. split; [apply lines_nodup; auto|]. intros r. rewrite lines_in. unfold q_of, quality, line_of. fold tp fp.
  split; intros (X & q & I & R); exists X, q; (split; [apply HP; auto|auto]).
Qed.
(** fit succeeds exactly when the measure is defined on all the frequent descriptions, and
    raises nothing but what the measure raises. *)
Theorem C27_errors : forall V (c : sd_config V) st0 df tcol tval st,
  categorical df -> distinct_keys df tcol -> has_column df tcol -> sdmap_new c = Ok st0 ->
  ((exists st', sdmap_fit c st df tcol tval = Ok st') <->
   (forall X, frequent df tcol tval (c_min_tp c) (c_min_fp c) (c_min_n c) X -> exists q, quality (c_measure c) df tcol tval X = Ok q)) /\
  (forall e, sdmap_fit c st df tcol tval = Err e ->
   exists X, frequent df tcol tval (c_min_tp c) (c_min_fp c) (c_min_n c) X /\ quality (c_measure c) df tcol tval X = Err e).
Proof.
  intros V c st0 df tcol tval st Hcat Hquo Hcol Hn. unfold sdmap_new in Hn.
  destruct (thresholds _ _ _) as [ok|] eqn:Hok; [|discriminate]. clear Hn.
  destruct (sdmap_fit_spec V c ok df tcol tval st Hcat Hquo Hcol Hok) as (P & NP & HP & EP). rewrite EP. split; [split|].
  - intros [st' E] X HX. apply HP in HX. destruct P as [|Y P]; [destruct HX|]. eapply handle_err; eauto.
  - intros H. destruct P as [|Y P]; [eauto|]. eexists. apply handle_ok. intros X I. apply H, HP; auto.
  - intros e E. destruct P as [|Y P]; [discriminate|]. apply handle_err_e in E. destruct E as (X & I & Eq). exists X. split; auto. apply HP; auto.
Qed.
(** Without any frequent description nothing changes: neither the counters nor the file,
    which keeps the result of an earlier fit. *)
Theorem C27_nothing_frequent : forall V (c : sd_config V) st0 df tcol tval st,
  categorical df -> distinct_keys df tcol -> has_column df tcol -> sdmap_new c = Ok st0 ->
  (forall X, ~ frequent df tcol tval (c_min_tp c) (c_min_fp c) (c_min_n c) X) ->
  sdmap_fit c st df tcol tval = Ok st.
Proof.
  intros V c st0 df tcol tval st Hcat Hquo Hcol Hn H. unfold sdmap_new in Hn.
  destruct (thresholds _ _ _) as [ok|] eqn:Hok; [|discriminate].
  destruct (sdmap_fit_spec V c ok df tcol tval st Hcat Hquo Hcol Hok) as (P & NP & HP & EP). rewrite EP.
  destruct P as [|X P]; auto. exfalso. apply (H X), HP. left; auto.
Qed.
(** A numeric column is refused. *)
Theorem C27_numeric_columns : forall V (c : sd_config V) df tcol tval st a col v,
  In (a, col) (df_cols df) -> In v col -> is_str v = false ->
  sdmap_fit c st df tcol tval = Err DatasetAttributeTypeError.
Proof.
  intros V c df tcol tval st a col v I J H. unfold sdmap_fit. replace (all_nominal df) with false; [reflexivity|]. symmetry.
  apply not_true_iff_false. intros X. unfold all_nominal in X. rewrite forallb_forall in X. specialize (X _ I). cbn [snd] in X.
  rewrite forallb_forall in X. specialize (X _ J). congruence.
Qed.

(** * C28: the counters *)
Theorem C28_counters : forall V (c : sd_config V) st0 df tcol tval st', categorical df -> distinct_keys df tcol -> has_column df tcol ->
  sdmap_new c = Ok st0 -> sdmap_fit c st0 df tcol tval = Ok st' ->
  exists all good,
    NoDup all /\ (forall X, In X all <-> frequent df tcol tval (c_min_tp c) (c_min_fp c) (c_min_n c) X) /\
    NoDup good /\ (forall X, In X good <-> In X all /\ exists q, quality (c_measure c) df tcol tval X = Ok q /\ c_reaches c q = true) /\
    st_selected st' = length good /\ visited_nodes st' = length all /\
    (forall ls, st_file st' = Some ls -> length ls = st_selected st').
Proof.
  intros V c st0 df tcol tval st' Hcat Hquo Hcol Hn E. unfold sdmap_new in Hn.
  destruct (thresholds _ _ _) as [ok|] eqn:Hok; [|discriminate]. cbn [bind] in Hn. injection Hn as <-.
  destruct (sdmap_fit_spec V c ok df tcol tval (SDS 0 0 None) Hcat Hquo Hcol Hok) as (P & NP & HP & EP). rewrite EP in E.
  exists P, (filter (fun X => match quality (c_measure c) df tcol tval X with Ok q => c_reaches c q | Err _ => false end) P).
  split; auto. split; auto. split; [apply NoDup_filter; auto|]. split.
  { intros X. rewrite filter_In. destruct (quality (c_measure c) df tcol tval X) as [q|]; split; intros [I H]; split; auto; try discriminate.
    - exists q; auto.
    - destruct H as (q' & H1 & H2). congruence.
    - destruct H as (q' & H1 & H2). congruence. }
  destruct P as [|X P]; [injection E as <-; cbn; repeat split; discriminate|]. remember (X :: P) as Q eqn:EQ. clear EQ EP X P.
  set (tp := tp_of df (Sel tcol EQUAL (VStr tval))) in *. set (fp := fp_of df (Sel tcol EQUAL (VStr tval))) in *.
  pose proof (handle_err c (Sel tcol EQUAL (VStr tval)) (TP_of df tcol tval) (FP_of df tcol tval) tp fp Q _ (ex_intro _ st' E)) as Hq.
  rewrite (handle_ok c _ _ _ tp fp) in E by auto. injection E as <-.
  pose proof (lines_misses c (Sel tcol EQUAL (VStr tval)) (TP_of df tcol tval) (FP_of df tcol tval) tp fp Q Hq) as LM.
  cbn [st_selected st_unselected st_file]. destruct (c_write c) eqn:Hw; cbn [st_selected st_unselected st_file Nat.add app].
  - split; [|split; [unfold visited_nodes; cbn [st_selected st_unselected]; lia|intros ls El; injection El as <-; reflexivity]].
    clear. induction Q as [|X Q IH]; [reflexivity|]. unfold lines, quality in *. cbn [flat_map filter]. unfold q_of at 1. fold tp fp.
    destruct (c_measure c (tp X) (fp X) _ _) as [q|]; cbn [app length]; auto. destruct (c_reaches c q); cbn [app length]; auto.
  - split; [|split; [unfold visited_nodes; cbn [st_selected st_unselected]; lia|discriminate]].
    clear. induction Q as [|X Q IH]; [reflexivity|]. unfold lines, quality in *. cbn [flat_map filter]. unfold q_of at 1. fold tp fp.
    destruct (c_measure c (tp X) (fp X) _ _) as [q|]; cbn [app length]; auto. destruct (c_reaches c q); cbn [app length]; auto.
Qed.
Print Assumptions C27_sound_and_complete. Print Assumptions C27_errors. Print Assumptions C27_nothing_frequent. Print Assumptions C28_counters.

(** Concrete cases *)
Definition toy : dataframe := DF 4
  [("a", [VStr "x"; VStr "x"; VStr "y"; VStr "x"]); ("b", [VStr "u"; VStr "u"; VStr "u"; VStr "v"]);
   ("class", [VStr "p"; VStr "p"; VStr "n"; VStr "n"])].
Lemma toy_no_quotes : no_quotes toy.
Proof. intros a c H. cbn in H. destruct H as [H|[H|[H|[]]]]; injection H as <- <-; split; reflexivity. Qed.
Lemma toy_ok : categorical toy /\ distinct_keys toy "class" /\ has_column toy "class".
Proof.
  enough (C : categorical toy) by (split; [exact C|split; [apply no_quotes_keys; [exact C|exact toy_no_quotes]|eexists; reflexivity]]). split; [|split].
  - intros a c H. cbn in H. destruct H as [H|[H|[H|[]]]]; injection H as <- <-; reflexivity.
  - repeat constructor; cbn; intuition discriminate.
  - intros a c v H I. cbn in H. destruct H as [H|[H|[H|[]]]]; injection H as <- <-; cbn in I; repeat (destruct I as [<-|I]; [reflexivity|]); destruct I.
Qed.
(** Measure tp - fp, minimum 1, minimum n 1. *)
Definition toy_config : sd_config Z := SDC (fun tp fp _ _ => Ok (tp - fp)) (fun q => 1 <=? q) None None (Some 1) true.
Example C25_nonvacuous : exists d t, dataset_tree toy "class" "p" None None (Some 1) d t /\ length (t_nodes t) = 6%nat /\ length (t_header t) = 4%nat.
Proof. eexists _, _. split; [split; vm_compute; reflexivity|]. split; vm_compute; reflexivity. Qed.
Example C26_nonvacuous : exists d t0 t, dataset_tree toy "class" "p" None None (Some 1) d t0 /\
  conditioned t0 None None (Some 1) t [Sel "b" EQUAL (VStr "u")] /\ map fst (t_header t) = [Sel "a" EQUAL (VStr "x")].
Proof.
  eexists _, _, _. split; [split; vm_compute; reflexivity|]. split.
  - eapply cond_step; [apply cond_start| |vm_compute; reflexivity]. vm_compute. tauto.
  - vm_compute. reflexivity.
Qed.
Example C27_nonvacuous : exists st', sdmap_fit toy_config (SDS 0 0 None) toy "class" "p" = Ok st' /\
  frequent toy "class" "p" None None (Some 1) [Sel "a" EQUAL (VStr "x"); Sel "b" EQUAL (VStr "u")] /\
  option_map (map (fun r => (length (g_desc (r_subgroup r)), r_quality r))) (st_file st') = Some [(1%nat, 1); (1%nat, 1); (2%nat, 2)] /\
  st_unselected st' = 4%nat.
Proof.
  eexists. split; [vm_compute; reflexivity|]. split; [|split; vm_compute; reflexivity].
  split; [split; [discriminate|split]|].
  - vm_compute. repeat constructor.
  - intros s [<-|[<-|[]]]; repeat split; try discriminate; eexists; reflexivity.
  - split; vm_compute; [lia|discriminate].
Qed.
(** A dataset with quotes in the names of its columns and distinct keys. *)
Definition quotes_fine : dataframe := DF 3 [("it's", [VStr "x"; VStr "x"; VStr "it's"]); ("it""", [VStr "y"; VStr "z'"; VStr "z'"]); ("class", [VStr "p"; VStr "p"; VStr "n"])].
Example C27_quotes_nonvacuous : categorical quotes_fine /\ distinct_keys quotes_fine "class" /\ has_column quotes_fine "class" /\ ~ no_quotes quotes_fine /\
  frequent quotes_fine "class" "p" None None (Some 1) [Sel "it""" EQUAL (VStr "z'"); Sel "it's" EQUAL (VStr "x")].
Proof.
  split; [split; [|split]|split; [|split; [|split]]].
  - intros a c H. cbn in H. destruct H as [H|[H|[H|[]]]]; injection H as <- <-; reflexivity.
  - repeat constructor; cbn; intuition discriminate.
  - intros a c v H I. cbn in H. destruct H as [H|[H|[H|[]]]]; injection H as <- <-; cbn in I; repeat (destruct I as [<-|I]; [reflexivity|]); destruct I.
  - intros a c v b c' w Ia Ib Na Nb Iv Iw. cbn in Ia, Ib.
    destruct Ia as [H|[H|[H|[]]]]; injection H as <- <-; try congruence; destruct Ib as [H|[H|[H|[]]]]; injection H as <- <-; try congruence; cbn in Iv, Iw;
      repeat (destruct Iv as [<-|Iv]); try destruct Iv; repeat (destruct Iw as [<-|Iw]); try destruct Iw; intros E; try (split; reflexivity); discriminate E.
  - eexists. reflexivity.
  - intros H. destruct (H "it's" _ (or_introl eq_refl)). discriminate.
  - split; [split; [discriminate|split]|split; vm_compute; [lia|discriminate]].
    + vm_compute. repeat constructor.
    + intros s [<-|[<-|[]]]; (split; [reflexivity|split; [reflexivity|split; [discriminate|eexists; reflexivity]]]).
Qed.
(** Quotes in column names: the two columns ["a'x\"] and ["a"] below give the same dictionary
    key for the values [y"] and [x'y"], so one selector replaces the other and is never
    reported. *)
Definition quoted : dataframe := DF 2
  [("a'x\", [VStr "y"""; VStr "z"]); ("a", [VStr "w"; VStr "x'y"""]); ("class", [VStr "p"; VStr "p"])].
Theorem C27_quoted_columns_counterexample : exists st' ls,
  categorical quoted /\ has_column quoted "class" /\
  sdmap_fit toy_config (SDS 0 0 None) quoted "class" "p" = Ok st' /\ st_file st' = Some ls /\
  frequent quoted "class" "p" None None (Some 1) [Sel "a'x\" EQUAL (VStr "y""")] /\
  quality (c_measure toy_config) quoted "class" "p" [Sel "a'x\" EQUAL (VStr "y""")] = Ok 1 /\
  ~ In [Sel "a'x\" EQUAL (VStr "y""")] (map (fun r => g_desc (r_subgroup r)) ls).
Proof.
  eexists _, _. split; [split; [|split]|split].
  - intros a c H. cbn in H. destruct H as [H|[H|[H|[]]]]; injection H as <- <-; reflexivity.
  - repeat constructor; cbn; intuition discriminate.
  - intros a c v H I. cbn in H. destruct H as [H|[H|[H|[]]]]; injection H as <- <-; cbn in I; repeat (destruct I as [<-|I]; [reflexivity|]); destruct I.
  - eexists. reflexivity.
  - split; [vm_compute; reflexivity|]. split; [vm_compute; reflexivity|]. split; [|split; [vm_compute; reflexivity|]].
    + split; [split; [discriminate|split]|].
      * vm_compute. repeat constructor.
      * intros s [<-|[]]. repeat split; try discriminate. eexists; reflexivity.
      * split; vm_compute; [lia|discriminate].
    + vm_compute. intros H. repeat (destruct H as [H|H]; [discriminate H|]). exact H.
Qed.

(** * C53: nodes *)
Inductive node_op := OpNew (s : selector) (tp fp : Z) | OpAdd (self child : nat) | OpDel (self : nat) (s : selector).
(** An operation that raises leaves the objects as they were (the checks come first). *)
Definition node_step (h : heap) (op : node_op) : heap :=
  match op with
  | OpNew s tp fp => fst (new_node h s tp fp None)
  | OpAdd i c => match add_child h i c with Ok h' => h' | Err _ => h end
  | OpDel i s => match delete_child_by_selector h i s with Ok h' => h' | Err _ => h end
  end.
Definition node_history (ops : list node_op) : heap := fold_left node_step ops [].

Definition child_keys_distinct (l : list (selector * nat)) : Prop :=
  ForallOrdPairs (fun x y => sel_eq (fst x) (fst y) = false) l.
Definition node_inv (h : heap) : Prop :=
  forall i n, nth_error h i = Some n -> child_keys_distinct (nd_childs n) /\
    forall s c, In (s, c) (nd_childs n) -> exists m, nth_error h c = Some m /\ nd_sel m = s.
Lemma sel_assoc_none : forall B s (l : list (selector * B)), sel_assoc s l = None <-> Forall (fun x => sel_eq (fst x) s = false) l.
Proof.
  induction l as [|[k v] l IH]; cbn [sel_assoc]; [split; auto|]. destruct (sel_eq k s) eqn:E.
  - split; [discriminate|]. intros H. inversion H; cbn in *; congruence.
  - rewrite IH. split; intros H; [constructor; auto|inversion H; auto].
Qed.
Lemma sel_assoc_in : forall B s (l : list (selector * B)) v, sel_assoc s l = Some v -> exists k, In (k, v) l /\ sel_eq k s = true.
Proof.
  induction l as [|[k v] l IH]; intros w E; cbn [sel_assoc] in E; [discriminate|]. destruct (sel_eq k s) eqn:Ek.
  - injection E as ->. exists k. split; [left|]; auto.
  - destruct (IH w E) as (k' & I & H). exists k'. split; auto. right; auto.
Qed.
Lemma sel_assoc_del_in : forall B s (l : list (selector * B)) x, In x (sel_assoc_del s l) -> In x l.
Proof.
  induction l as [|[k v] l IH]; intros x I; cbn [sel_assoc_del] in I; auto. destruct (sel_eq k s); [right; auto|].
  destruct I as [<-|I]; [left; auto|right; auto].
Qed.
Lemma sel_assoc_del_gone : forall B s (l : list (selector * B)) k v, ForallOrdPairs (fun x y => sel_eq (fst x) (fst y) = false) l ->
  sel_assoc s l = Some v -> In (k, v) (sel_assoc_del s l) -> exists k', In (k', v) l /\ sel_eq k' k = false.
Proof.
  intros B s l k v F. induction F as [|[k0 v0] l F0 F IH]; cbn [sel_assoc sel_assoc_del]; intros E I; [destruct I|].
  destruct (sel_eq k0 s) eqn:Ek.
  - injection E as ->. exists k0. split; [left; auto|]. rewrite Forall_forall in F0. apply (F0 (k, v)); auto.
  - destruct I as [I|I].
    + injection I as -> ->. destruct (sel_assoc_in _ _ _ _ E) as (k' & I' & Q). exists k'. split; [right; auto|].
      rewrite Forall_forall in F0. specialize (F0 _ I'). cbn [fst] in F0. rewrite CoreOrder.sel_eq_sym. auto.
    + destruct (IH E I) as (k' & I' & Q). exists k'. split; auto. right; auto.
Qed.
Lemma upd_id_fields : forall (h : heap) i f j n, nth_error (upd i f h) j = Some n ->
  exists m, nth_error h j = Some m /\ (n = m \/ j = i /\ n = f m).
Proof.
  intros h i f j n H. rewrite nth_error_upd in H. destruct (Nat.eqb j i) eqn:E.
  - apply Nat.eqb_eq in E. subst. destruct (nth_error h i) as [m|]; [|discriminate]. cbn in H. injection H as <-. exists m; auto.
  - exists n; auto.
Qed.
Lemma upd_sel : forall (h : heap) i f j, (forall n, nd_sel (f n) = nd_sel n) -> option_map nd_sel (nth_error (upd i f h) j) = option_map nd_sel (nth_error h j).
Proof.
  intros h i f j H. rewrite nth_error_upd. destruct (Nat.eqb j i); auto. destruct (nth_error h j); cbn; auto. rewrite H. auto.
Qed.
Lemma FOP_snoc : forall A (R : A -> A -> Prop) l x, ForallOrdPairs R l -> Forall (fun y => R y x) l -> ForallOrdPairs R (l ++ [x]).
Proof.
  intros A R l x F G. apply FOP_app; auto; [repeat constructor|]. intros y z I [<-|[]]. rewrite Forall_forall in G. auto.
Qed.
Lemma FOP_del : forall s l, child_keys_distinct l -> child_keys_distinct (sel_assoc_del s l).
Proof.
  intros s l F. induction F as [|[k v] l F0 F IH]; cbn [sel_assoc_del]; [constructor|]. destruct (sel_eq k s); auto. constructor; auto.
  rewrite Forall_forall in *. intros x I. apply F0. apply sel_assoc_del_in in I. auto.
Qed.
Lemma node_step_inv : forall h op, node_inv h -> node_inv (node_step h op).
Proof.
  intros h op H. destruct op as [s tp fp|i c|i s]; cbn [node_step].
  - cbn [new_node fst]. intros j n Hj. destruct (Nat.lt_ge_cases j (length h)) as [L|L].
    + rewrite nth_error_app1 in Hj by auto. destruct (H j n Hj) as [A B]. split; auto. intros s' c' I. destruct (B s' c' I) as (m & E & Q).
      exists m. split; auto. rewrite nth_error_app1; auto. apply nth_error_Some. congruence.
    + rewrite nth_error_app2 in Hj by auto. destruct (j - length h)%nat as [|k]; [|destruct k; discriminate]. cbn in Hj. injection Hj as <-. cbn.
      split; [constructor|intros s' c' []].
  - unfold add_child. destruct (nth_error h i) as [n0|] eqn:Ei; [|exact H]. destruct (nth_error h c) as [cn|] eqn:Ec; [|exact H].
    destruct (sel_assoc (nd_sel cn) (nd_childs n0)) eqn:Ea; [exact H|].
    set (h1 := upd c (set_parent (Some i)) h). set (f := fun x => set_childs (nd_childs x ++ [(nd_sel cn, c)]) x).
    assert (K : forall j s', (exists m, nth_error h j = Some m /\ nd_sel m = s') -> exists m, nth_error (upd i f h1) j = Some m /\ nd_sel m = s').
    { intros j s' (m & E & Q). assert (X : option_map nd_sel (nth_error (upd i f h1) j) = Some s').
      { rewrite upd_sel by reflexivity. unfold h1. rewrite upd_sel by reflexivity. rewrite E. cbn. congruence. }
      destruct (nth_error (upd i f h1) j) as [m'|]; [|discriminate]. injection X as X. eauto. }
    intros j n Hj. apply upd_id_fields in Hj. destruct Hj as (m1 & H1 & C1). unfold h1 in H1. apply upd_id_fields in H1. destruct H1 as (m & Hm & C2).
    assert (Ech : nd_childs m1 = nd_childs m) by (destruct C2 as [->|[_ ->]]; reflexivity).
    destruct (H j m Hm) as [A B]. destruct C1 as [->|[-> ->]].
    + rewrite Ech. split; [exact A|]. intros s' c' I. apply K, B; auto.
    + unfold f. cbn [set_childs nd_childs]. rewrite Ech. rewrite Hm in Ei. injection Ei as ->. split.
      * apply FOP_snoc; auto. apply sel_assoc_none in Ea. exact Ea.
      * intros s' c' I. apply in_app_or in I. destruct I as [I|[I|[]]]; [apply K; auto|]. injection I as <- <-. apply K. eauto.
  - unfold delete_child_by_selector. destruct (nth_error h i) as [n0|] eqn:Ei; [|exact H].
    destruct (sel_assoc s (nd_childs n0)) as [c|] eqn:Ea; [|exact H].
    set (h1 := upd c (set_parent None) h). set (f := fun x => set_childs (sel_assoc_del s (nd_childs x)) x).
    assert (K : forall j s', (exists m, nth_error h j = Some m /\ nd_sel m = s') -> exists m, nth_error (upd i f h1) j = Some m /\ nd_sel m = s').
    { intros j s' (m & E & Q). assert (X : option_map nd_sel (nth_error (upd i f h1) j) = Some s').
      { rewrite upd_sel by reflexivity. unfold h1. rewrite upd_sel by reflexivity. rewrite E. cbn. congruence. }
      destruct (nth_error (upd i f h1) j) as [m'|]; [|discriminate]. injection X as X. eauto. }
    intros j n Hj. apply upd_id_fields in Hj. destruct Hj as (m1 & H1 & C1). unfold h1 in H1. apply upd_id_fields in H1. destruct H1 as (m & Hm & C2).
    assert (Ech : nd_childs m1 = nd_childs m) by (destruct C2 as [->|[_ ->]]; reflexivity).
    destruct (H j m Hm) as [A B]. destruct C1 as [->|[-> ->]].
    + rewrite Ech. split; [exact A|]. intros s' c' I. apply K, B; auto.
    + unfold f. cbn [set_childs nd_childs]. rewrite Ech. split; [apply FOP_del; auto|].
      intros s' c' I. apply sel_assoc_del_in in I. apply K, B; auto.
Qed.
Lemma node_history_inv : forall ops, node_inv (node_history ops).
Proof.
  intros ops. unfold node_history. assert (G : forall ops h, node_inv h -> node_inv (fold_left node_step ops h)).
  { induction ops0 as [|op ops0 IH]; intros h H; cbn [fold_left]; auto. apply IH, node_step_inv; auto. }
  apply G. intros i n H. destruct i; discriminate.
Qed.
(** After any history of constructions, additions and deletions (failed ones included): no
    two children of a node have equal selectors, a child is stored under its own selector,
    and looking a selector up finds it. *)
Theorem C53_children : forall ops i n, nth_error (node_history ops) i = Some n ->
  ForallOrdPairs (fun x y => sel_eq (fst x) (fst y) = false) (nd_childs n) /\
  (forall s c, In (s, c) (nd_childs n) ->
     exists m, nth_error (node_history ops) c = Some m /\ nd_sel m = s /\ has_this_child (node_history ops) i c = true) /\
  (forall s c, In (s, c) (nd_childs n) -> forall s', sel_eq s s' = true -> get_child_by_selector (node_history ops) i s' = Some c) /\
  (forall s', (forall s c, In (s, c) (nd_childs n) -> sel_eq s s' = false) -> get_child_by_selector (node_history ops) i s' = None).
Proof.
  intros ops i n Hn. destruct (node_history_inv ops i n Hn) as [A B].
  assert (G : forall s c, In (s, c) (nd_childs n) -> forall s', sel_eq s s' = true -> get_child_by_selector (node_history ops) i s' = Some c).
  { intros s c I s' E. unfold get_child_by_selector. rewrite Hn. clear Hn B. induction A as [|[k v] l F0 F IH]; [destruct I|]. cbn [sel_assoc].
    destruct I as [I|I]; [injection I as -> ->; rewrite E; auto|]. destruct (sel_eq k s') eqn:Ek; auto.
    rewrite Forall_forall in F0. specialize (F0 _ I). cbn [fst] in F0.
    rewrite (CoreOrder.sel_eq_trans k s' s) in F0; [discriminate|auto|rewrite CoreOrder.sel_eq_sym; auto]. }
  split; auto. split; [|split; auto].
  - intros s c I. destruct (B s c I) as (m & E & Q). exists m. split; auto. split; auto. unfold has_this_child. rewrite Hn, E, Q.
    specialize (G s c I s (CoreOrder.sel_eq_refl s)). unfold get_child_by_selector in G. rewrite Hn in G. rewrite G. apply Nat.eqb_refl.
  - intros s' H. unfold get_child_by_selector. rewrite Hn. apply sel_assoc_none. apply Forall_forall. intros [s c] I. apply (H s c I).
Qed.
(** When only nodes without parent are added (what the trees do), a child's parent is the
    node that holds it. *)
Fixpoint only_orphans (h : heap) (ops : list node_op) : Prop :=
  match ops with
  | [] => True
  | op :: ops' => match op with OpAdd _ c => match nth_error h c with Some m => nd_parent m = None | None => True end | _ => True end /\
                  only_orphans (node_step h op) ops'
  end.
Definition parent_inv (h : heap) : Prop :=
  forall i n s c, nth_error h i = Some n -> In (s, c) (nd_childs n) -> exists m, nth_error h c = Some m /\ nd_parent m = Some i.
Lemma parent_step : forall h op, node_inv h -> parent_inv h ->
  match op with OpAdd _ c => match nth_error h c with Some m => nd_parent m = None | None => True end | _ => True end ->
  parent_inv (node_step h op).
Proof.
  intros h op HN H O. destruct op as [s tp fp|i c|i s]; cbn [node_step].
  - cbn [new_node fst]. intros j n s' c' Hj I. destruct (Nat.lt_ge_cases j (length h)) as [L|L].
    + rewrite nth_error_app1 in Hj by auto. destruct (H j n s' c' Hj I) as (m & E & Q). exists m. split; auto.
      rewrite nth_error_app1; auto. apply nth_error_Some. congruence.
    + rewrite nth_error_app2 in Hj by auto. destruct (j - length h)%nat as [|k]; [|destruct k; discriminate]. cbn in Hj. injection Hj as <-. destruct I.
  - unfold add_child. destruct (nth_error h i) as [n0|] eqn:Ei; [|exact H]. destruct (nth_error h c) as [cn|] eqn:Ec; [|exact H].
    destruct (sel_assoc (nd_sel cn) (nd_childs n0)) eqn:Ea; [exact H|].
    intros j n s' c' Hj I. apply upd_id_fields in Hj. destruct Hj as (m1 & H1 & C1). apply upd_id_fields in H1. destruct H1 as (m & Hm & C2).
    assert (Ech : nd_childs m1 = nd_childs m) by (destruct C2 as [->|[_ ->]]; reflexivity).
    assert (Old : In (s', c') (nd_childs m) -> c' <> c).
    { intros J ->. destruct (H j m s' c Hm J) as (m' & E & Q). congruence. }
    assert (New : exists m', nth_error (upd i (fun x => set_childs (nd_childs x ++ [(nd_sel cn, c)]) x) (upd c (set_parent (Some i)) h)) c = Some m' /\ nd_parent m' = Some i).
    { rewrite !nth_error_upd, Nat.eqb_refl, Ec. cbn [option_map]. destruct (Nat.eqb c i); cbn [option_map]; eexists; split; reflexivity. }
    assert (Keep : forall x y, c' <> c -> nth_error h c' = Some x -> nd_parent x = y ->
       exists m', nth_error (upd i (fun x => set_childs (nd_childs x ++ [(nd_sel cn, c)]) x) (upd c (set_parent (Some i)) h)) c' = Some m' /\ nd_parent m' = y).
    { intros x y N E Q. rewrite !nth_error_upd. replace (Nat.eqb c' c) with false by (symmetry; apply Nat.eqb_neq; auto). rewrite E.
      destruct (Nat.eqb c' i); cbn [option_map]; eexists; (split; [reflexivity|]); cbn; auto. }
    destruct C1 as [->|[-> ->]].
    + rewrite Ech in I. destruct (H j m s' c' Hm I) as (m' & E & Q). apply (Keep m'); auto.
    + cbn [set_childs nd_childs] in I. rewrite Ech in I. apply in_app_or in I. destruct I as [I|[I|[]]].
      * destruct (H i m s' c' Hm I) as (m' & E & Q). apply (Keep m'); auto.
      * injection I as <- <-. exact New.
  - unfold delete_child_by_selector. destruct (nth_error h i) as [n0|] eqn:Ei; [|exact H].
    destruct (sel_assoc s (nd_childs n0)) as [c|] eqn:Ea; [|exact H].
    assert (Keep : forall c' x y, c' <> c -> nth_error h c' = Some x -> nd_parent x = y ->
       exists m', nth_error (upd i (fun x => set_childs (sel_assoc_del s (nd_childs x)) x) (upd c (set_parent None) h)) c' = Some m' /\ nd_parent m' = y).
    { intros c' x y N E Q. rewrite !nth_error_upd. replace (Nat.eqb c' c) with false by (symmetry; apply Nat.eqb_neq; auto). rewrite E.
      destruct (Nat.eqb c' i); cbn [option_map]; eexists; (split; [reflexivity|]); cbn; auto. }
    destruct (sel_assoc_in _ _ _ _ Ea) as (k & Ik & Qk). destruct (H i n0 k c Ei Ik) as (mc & Ec & Qc).
    intros j n s' c' Hj I. rewrite nth_error_upd in Hj. destruct (Nat.eqb j i) eqn:Eji.
    + apply Nat.eqb_eq in Eji. subst j. rewrite nth_error_upd, Ei in Hj.
      assert (En : nd_childs n = sel_assoc_del s (nd_childs n0)) by (destruct (Nat.eqb i c); cbn in Hj; injection Hj as <-; reflexivity).
      rewrite En in I. pose proof (sel_assoc_del_in _ _ _ _ I) as I0. destruct (H i n0 s' c' Ei I0) as (m' & E & Q). apply (Keep c' m'); auto.
      intros ->. destruct (HN i n0 Ei) as [A B]. destruct (sel_assoc_del_gone _ _ _ _ _ A Ea I) as (k' & Ik' & Qk').
      destruct (B _ _ Ik') as (x1 & X1 & Y1). destruct (B _ _ I0) as (x2 & X2 & Y2). assert (x1 = x2) by congruence. subst. rewrite CoreOrder.sel_eq_refl in Qk'. discriminate.
    + apply Nat.eqb_neq in Eji. apply upd_id_fields in Hj. destruct Hj as (m & Hm & C2).
      assert (Ech : nd_childs n = nd_childs m) by (destruct C2 as [->|[_ ->]]; reflexivity). rewrite Ech in I.
      destruct (H j m s' c' Hm I) as (m' & E & Q). apply (Keep c' m'); auto. intros ->. congruence.
Qed.
Theorem C53_parents : forall ops i n s c, only_orphans [] ops -> nth_error (node_history ops) i = Some n -> In (s, c) (nd_childs n) ->
  is_child_of (node_history ops) c (Some i) = true.
Proof.
  assert (G : forall ops h, node_inv h -> parent_inv h -> only_orphans h ops -> parent_inv (fold_left node_step ops h)).
  { induction ops as [|op ops IH]; intros h H1 H2 H3; cbn [fold_left]; auto. destruct H3 as [H3 H4]. apply IH; auto using node_step_inv, parent_step. }
  intros ops i n s c O Hn I. destruct (G ops [] ltac:(intros [|i0] n0 H; discriminate) ltac:(intros [|i0] n0 s0 c0 H; discriminate) O i n s c Hn I) as (m & E & Q).
  unfold is_child_of, node_history. rewrite E, Q. apply Nat.eqb_refl.
Qed.
(** A node added to a second parent stays among the children of the first one, whose child it
    no longer is. *)
Theorem C53_shared_child_counterexample : exists ops n s c, nth_error (node_history ops) 0 = Some n /\ In (s, c) (nd_childs n) /\
  is_child_of (node_history ops) c (Some 0%nat) = false.
Proof.
  exists [OpNew root_selector (-1) (-1); OpNew root_selector (-1) (-1); OpNew (Sel "a" EQUAL (VStr "x")) 1 0; OpAdd 0 2; OpAdd 1 2].
  eexists _, _, _. split; [vm_compute; reflexivity|]. split; [left; reflexivity|]. vm_compute. reflexivity.
Qed.
Example C53_nonvacuous : let ops := [OpNew root_selector (-1) (-1); OpNew (Sel "a" EQUAL (VStr "x")) 1 0; OpNew (Sel "a" EQUAL (VStr "y")) 1 0; OpAdd 0 1; OpAdd 0 2; OpDel 0 (Sel "a" EQUAL (VStr "x"))] in
  only_orphans [] ops /\ exists n, nth_error (node_history ops) 0 = Some n /\ nd_childs n = [(Sel "a" EQUAL (VStr "y"), 2%nat)].
Proof. cbv zeta. split; [vm_compute; repeat split; auto|]. eexists. split; [vm_compute; reflexivity|]. reflexivity. Qed.

(** * C54: the combinations of a single path *)
Theorem C54_combinations : forall l : list selector, NoDup l ->
  exists r, remove_empty (generate_all_combinations l) = Ok r /\
    (forall Y, In Y r -> Y <> [] /\ NoDup Y /\ incl Y l) /\
    (forall Y, Y <> [] -> NoDup Y -> incl Y l -> exists Z, In Z r /\ Permutation Y Z) /\
    ForallOrdPairs (fun Y Z => ~ Permutation Y Z) r /\
    S (length r) = (2 ^ length l)%nat.
Proof.
  intros l ND. destruct (combos_hd _ l) as [r Hr]. exists r. rewrite Hr. split; [reflexivity|].
  pose proof (combos_diff l ND) as F. rewrite Hr in F. inversion F as [|x y F0 F1]; subst. rewrite Forall_forall in F0. split; [|split; [|split]].
  - intros Y I. destruct (combos_in _ l Y) as [A B]; [rewrite Hr; right; auto|]. split; [|split; auto]. intros ->. apply (F0 [] I). auto.
  - intros Y NY NDY I. destruct (combos_complete l Y ND NDY I) as (Z & IZ & P). rewrite Hr in IZ. destruct IZ as [<-|IZ]; [|eauto].
    apply Permutation_sym, Permutation_nil in P. contradiction.
  - exact F1.
  - change (S (length r)) with (length ([] :: r)). rewrite <- Hr. clear. induction l as [|x l IH]; [reflexivity|].
    cbn [generate_all_combinations length Nat.pow]. rewrite app_length, map_length, IH. lia.
Qed.
Example C54_nonvacuous : NoDup [Sel "a" EQUAL (VStr "x"); Sel "b" EQUAL (VStr "x")].
Proof. repeat constructor; cbn; intuition discriminate. Qed.
Print Assumptions C53_children. Print Assumptions C53_parents. Print Assumptions C54_combinations.
