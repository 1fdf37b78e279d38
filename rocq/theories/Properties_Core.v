(** Property theorems C01-C13 (core classes). Each theorem is closed by a lemma proved
    elsewhere; next to it a concrete non-trivial case meeting its hypotheses. *)
From Verif Require Import Base CoreModel CoreSpec CoreOrder CorePattern CoreText CoreFrame.
Open Scope string_scope.
Open Scope list_scope.
Open Scope nat_scope.

Ltac in_cases := repeat match goal with
  | H : In _ (_ :: _) |- _ => destruct H as [<-|H]
  | H : In _ [] |- _ => destruct H end.
Definition ex_a := Sel "age" LESS (VInt 30).
Definition ex_b := Sel "color" EQUAL (VStr "red, dark").
Definition ex_c := Sel "w" GREATER_OR_EQUAL (VFloat (-125) 2).
Definition ex_u := [ex_c; ex_a; ex_b].

(** * C01 *)
Theorem C01_operator_text_roundtrip :
  (forall o, op_parse (op_str o) = Ok o) /\
  (forall t, (exists o, op_parse t = Ok o /\ t = op_str o) \/ (op_parse t = Err AttributeError /\ forall o, t <> op_str o)).
Proof.
  split; [exact op_parse_str|]. intro t. destruct (op_parse t) as [o|e] eqn:E.
  - left. exists o. split; [reflexivity|exact (op_parse_ok t o E)].
  - right. rewrite (op_parse_err t e E). split; [reflexivity|]. intros o ->. rewrite op_parse_str in E. discriminate.
Qed.
Print Assumptions C01_operator_text_roundtrip.

Theorem C01_evaluate_is_the_relation : forall o v w, (comparable v w \/ ~ is_order o) ->
  exists b, op_evaluate o v w = Ok b /\ (b = true <-> holds o v w).
Proof. exact evaluate_holds. Qed.
Print Assumptions C01_evaluate_is_the_relation.
Example C01_evaluate_nonvacuous : comparable (VInt 3) (VFloat 35 1) /\ op_evaluate LESS (VInt 3) (VFloat 35 1) = Ok true.
Proof. split; reflexivity. Qed.

Theorem C01_evaluate_mixed_kinds : forall o v w, ~ comparable v w ->
  (is_order o -> op_evaluate o v w = Err TypeError) /\
  op_evaluate EQUAL v w = Ok false /\ op_evaluate NOT_EQUAL v w = Ok true.
Proof. intros o v w H. split; [exact (evaluate_type_error o v w H)|exact (evaluate_mixed v w H)]. Qed.
Print Assumptions C01_evaluate_mixed_kinds.
Example C01_mixed_nonvacuous : ~ comparable (VStr "3") (VInt 3).
Proof. discriminate. Qed.

Theorem C01_operator_order : forall a b,
  (op_lt a b = true <-> op_value a < op_value b) /\ (op_eq a b = true <-> a = b) /\
  op_gt a b = op_lt b a /\ op_ne a b = negb (op_eq a b) /\
  op_le a b = op_lt a b || op_eq a b /\ op_ge a b = op_lt b a || op_eq a b.
Proof. exact op_order_total. Qed.
Print Assumptions C01_operator_order.

(** * C02 *)
(** Full statement: for every history and every triple, the returned object has the requested
    fields. It is false of the code: *)
Theorem C02_pool_fields_refuted : exists evs a o v ob,
  snd (selector_new (pool_after evs) a o v) = Ok ob /\
  ~ (s_attr (o_sel ob) = a /\ s_op (o_sel ob) = o /\ s_val (o_sel ob) = v).
Proof.
  exists [EvNew "a = 'b'" EQUAL (VStr "c")], "a", EQUAL, (VStr "b' = 'c"), (Obj 0 (Sel "a = 'b'" EQUAL (VStr "c"))).
  split; [vm_compute; reflexivity|]. intros (H & _). discriminate.
Qed.
Print Assumptions C02_pool_fields_refuted.
(** It holds for every history over attribute names without spaces: *)
Theorem C02_pool_fields_no_space : forall evs a o v,
  Forall event_ok evs -> no_space a -> wf_value v ->
  match snd (selector_new (pool_after evs) a o v) with
  | Ok ob => s_attr (o_sel ob) = a /\ s_op (o_sel ob) = o /\ s_val (o_sel ob) = v
  | Err e => e = ValueError /\ is_str v = true /\ o <> EQUAL /\ o <> NOT_EQUAL
  end.
Proof. exact selector_new_fields. Qed.
Print Assumptions C02_pool_fields_no_space.
Theorem C02_pool_identity_no_space : forall evs a o v evs' ob,
  Forall event_ok evs -> no_space a -> wf_value v ->
  snd (selector_new (pool_after evs) a o v) = Ok ob ->
  Forall event_ok evs' -> Forall (fun e => ~ collects (o_id ob) e) evs' ->
  forall a' o' v', no_space a' -> wf_value v' ->
  let later := pool_after (evs ++ EvNew a o v :: evs') in
  forall ob', snd (selector_new later a' o' v') = Ok ob' ->
  (a' = a /\ o' = o /\ v' = v -> ob' = ob) /\ (~ (a' = a /\ o' = o /\ v' = v) -> o_id ob' <> o_id ob).
Proof. exact selector_new_identity. Qed.
Print Assumptions C02_pool_identity_no_space.
Example C02_nonvacuous :
  Forall event_ok [EvNew "a" EQUAL (VInt 23); EvNew "a" EQUAL (VStr "23"); EvCollect 0; EvNew "a" LESS (VFloat 5 1)] /\
  map (fun v => snd (selector_new (pool_after [EvNew "a" EQUAL (VInt 23); EvNew "a" EQUAL (VStr "23"); EvCollect 0]) "a" EQUAL v))
      [VStr "23"; VInt 23]
  = [Ok (Obj 1 (Sel "a" EQUAL (VStr "23"))); Ok (Obj 2 (Sel "a" EQUAL (VInt 23)))].
Proof. split; [repeat constructor|vm_compute; reflexivity]. Qed.

(** * C03 *)
Theorem C03_selector_roundtrip_refuted : exists s t,
  constructible s /\ sel_parse (sel_str s) = Ok t /\ sel_eq s t = false.
Proof.
  exists (Sel "a = 'b'" EQUAL (VStr "c")), (Sel "a" EQUAL (VStr "b' = 'c")).
  repeat split; vm_compute; reflexivity.
Qed.
Print Assumptions C03_selector_roundtrip_refuted.
Theorem C03_selector_roundtrip_no_space : forall s,
  constructible s -> no_space (s_attr s) -> sel_parse (sel_str s) = Ok s.
Proof. exact sel_parse_str. Qed.
Print Assumptions C03_selector_roundtrip_no_space.
Example C03_nonvacuous : Forall (fun s => constructible s /\ no_space (s_attr s)) ex_u.
Proof.
  unfold ex_u. repeat (apply Forall_cons; [split; [split; [reflexivity|simpl; try exact I; try (split; [lia|right; vm_compute; discriminate])]|reflexivity]|]). apply Forall_nil.
Qed.

(** * C04 *)
Theorem C04_order_total_refuted : exists s t u,
  (sel_lt s t = true /\ sel_lt t u = true /\ sel_lt u s = true) /\
  (exists v, sel_lt t v = false /\ sel_eq t v = false /\ sel_gt t v = false /\ sel_le t v = true /\ sel_ge t v = true).
Proof.
  exists (Sel "a" EQUAL (VInt 9)), (Sel "a" EQUAL (VInt 10)), (Sel "a" EQUAL (VStr "100")).
  split; [repeat split; vm_compute; reflexivity|]. exists (Sel "a" EQUAL (VStr "10")). repeat split; vm_compute; reflexivity.
Qed.
Print Assumptions C04_order_total_refuted.
Theorem C04_order_total_same_kind : forall s t u,
  same_kind s t -> same_kind t u -> same_kind s u ->
  ((sel_lt s t = true /\ sel_eq s t = false /\ sel_gt s t = false) \/
   (sel_lt s t = false /\ sel_eq s t = true /\ sel_gt s t = false) \/
   (sel_lt s t = false /\ sel_eq s t = false /\ sel_gt s t = true)) /\
  (sel_lt s t = true -> sel_lt t u = true -> sel_lt s u = true) /\
  (sel_le s t = sel_lt s t || sel_eq s t) /\ (sel_ge s t = sel_le t s) /\ (sel_gt s t = sel_lt t s) /\
  (sel_ne s t = negb (sel_eq s t)).
Proof.
  intros s t u H1 H2 H3.
  exact (conj (sel_trichotomy s t H1) (conj (sel_lt_trans s t u H1 H2 H3) (conj (sel_le_lt_eq s t H1)
        (conj (sel_ge_le s t) (conj (sel_gt_lt s t) (sel_ne_neg s t)))))).
Qed.
Print Assumptions C04_order_total_same_kind.
Example C04_nonvacuous : same_kind (Sel "a" LESS (VInt 9)) (Sel "a" LESS (VFloat 95 1)) /\
  sel_lt (Sel "a" LESS (VInt 9)) (Sel "a" LESS (VFloat 95 1)) = true.
Proof. split; [intros _ _; reflexivity|vm_compute; reflexivity]. Qed.
Theorem C04_equality_is_equivalence : forall s t u,
  sel_eq s s = true /\ sel_eq s t = sel_eq t s /\ (sel_eq s t = true -> sel_eq t u = true -> sel_eq s u = true).
Proof. intros s t u. exact (conj (sel_eq_refl s) (conj (sel_eq_sym s t) (sel_eq_trans s t u))). Qed.
Print Assumptions C04_equality_is_equivalence.

(** * C05 *)
Theorem C05_hash_contract_refuted : forall h : string -> Z, h "a = 1" <> h "a = 1.0" ->
  exists s t, constructible s /\ constructible t /\ sel_eq s t = true /\ sel_hash h s <> sel_hash h t.
Proof.
  intros h Hh. exists (Sel "a" EQUAL (VInt 1)), (Sel "a" EQUAL (VFloat 10 1)).
  split; [split; [reflexivity|exact I]|]. split; [split; [reflexivity|simpl; lia]|].
  split; [vm_compute; reflexivity|exact Hh].
Qed.
Print Assumptions C05_hash_contract_refuted.
Theorem C05_hash_contract_same_type : forall (h : string -> Z) s t,
  wf_value (s_val s) -> wf_value (s_val t) -> same_type (s_val s) (s_val t) ->
  sel_eq s t = true -> sel_hash h s = sel_hash h t.
Proof. exact hash_same. Qed.
Print Assumptions C05_hash_contract_same_type.
Example C05_nonvacuous : same_type (VFloat 15 1) (VFloat 15 1) /\ wf_value (VFloat 15 1).
Proof. split; [exact I|simpl; lia]. Qed.

(** * C06 *)
Theorem C06_pattern_history_same_kind : forall U l0 ops,
  homogeneous U -> incl l0 U -> incl (flat_map op_selectors ops) U ->
  sorted_strictly (pattern_history l0 ops) /\
  pattern_len (pattern_history l0 ops) = length (set_history l0 ops) /\
  forall s, In s U -> (pattern_contains (pattern_history l0 ops) s = true <-> member s (set_history l0 ops)).
Proof. exact pattern_history_correct. Qed.
Print Assumptions C06_pattern_history_same_kind.
Example C06_nonvacuous : homogeneous ex_u /\
  pattern_history [ex_c; ex_a; ex_c] [OpAdd ex_b; OpRemove ex_a; OpAdd ex_a; OpRemoveIndex (-1)] = [ex_a; ex_b] /\
  set_history [ex_c; ex_a; ex_c] [OpAdd ex_b; OpRemove ex_a; OpAdd ex_a; OpRemoveIndex (-1)] = [ex_a; ex_b].
Proof.
  split; [|split; vm_compute; reflexivity]. intros s t Hs Ht. unfold ex_u in *.
  in_cases; intros E; vm_compute in E; try discriminate; reflexivity.
Qed.
(** Without the guard: after adding a selector the pattern may deny containing it. *)
Theorem C06_pattern_history_refuted : exists l0 s,
  pattern_contains (pattern_history l0 [OpAdd s]) s = false /\ ~ member s l0 /\
  member s (set_history l0 [OpAdd s]).
Proof.
  exists (map (fun z => Sel "a" EQUAL (VInt z)) [1; 3; 10; 20; 21]%Z), (Sel "a" EQUAL (VStr "2")).
  split; [vm_compute; reflexivity|]. split.
  - intros (x & Hx & E). simpl in Hx. repeat (destruct Hx as [<-|Hx]; [discriminate E|]). destruct Hx.
  - exists (Sel "a" EQUAL (VStr "2")). split; [vm_compute; auto|vm_compute; reflexivity].
Qed.
Print Assumptions C06_pattern_history_refuted.

(** * C07 *)
Theorem C07_pattern_equality_same_kind : forall l1 l2, homogeneous (l1 ++ l2) ->
  (pattern_eq (pattern_init l1) (pattern_init l2) = true <-> forall s, member s l1 <-> member s l2) /\
  pattern_ne (pattern_init l1) (pattern_init l2) = negb (pattern_eq (pattern_init l1) (pattern_init l2)).
Proof. intros l1 l2 H. exact (conj (pattern_eq_init l1 l2 H) (pattern_ne_eq _ _)). Qed.
Print Assumptions C07_pattern_equality_same_kind.
Theorem C07_add_remove_same_kind : forall l s, homogeneous (s :: l) ->
  let p := pattern_init l in
  (member s l -> add_selector p s = p) /\ (~ member s l -> remove_selector (add_selector p s) s = p).
Proof.
  intros l s H p. assert (Hl : homogeneous l) by (intros a b Ha Hb; apply H; now right).
  destruct (pattern_init_spec l Hl) as (H1 & H2 & H3).
  assert (Hc : compat p s) by (intros x Hx; apply H; [right; now apply H2|now left]).
  split; intro Hm.
  - exact (add_present p s H1 Hc (proj2 (H3 s) Hm)).
  - exact (add_remove_absent p s H1 Hc (fun X => Hm (proj1 (H3 s) X))).
Qed.
Print Assumptions C07_add_remove_same_kind.
Example C07_nonvacuous : homogeneous ([ex_a; ex_b; ex_a] ++ [ex_b; ex_a]) /\
  pattern_eq (pattern_init [ex_a; ex_b; ex_a]) (pattern_init [ex_b; ex_a]) = true.
Proof.
  split; [|vm_compute; reflexivity]. intros s t Hs Ht. simpl app in *.
  in_cases; intros E; vm_compute in E; try discriminate; reflexivity.
Qed.
(** Mixed value types: the same selectors in another order give a different pattern. *)
Theorem C07_pattern_equality_refuted : exists l1 l2, Permutation l1 l2 /\
  pattern_eq (pattern_init l1) (pattern_init l2) = false.
Proof.
  exists [Sel "a" EQUAL (VInt 10); Sel "a" EQUAL (VStr "10")], [Sel "a" EQUAL (VStr "10"); Sel "a" EQUAL (VInt 10)].
  split; [apply perm_swap|vm_compute; reflexivity].
Qed.
Print Assumptions C07_pattern_equality_refuted.

(** * C08 *)
Theorem C08_pattern_roundtrip_refuted : exists p q,
  Forall constructible p /\ Forall (fun s => no_space (s_attr s)) p /\ sorted_strictly p /\
  pattern_parse (pattern_str p) = Ok q /\ pattern_eq p q = false.
Proof.
  exists [Sel "a" EQUAL (VStr "x', b = 'y")], [Sel "a" EQUAL (VStr "x"); Sel "b" EQUAL (VStr "y")].
  repeat split; repeat constructor; vm_compute; reflexivity.
Qed.
Print Assumptions C08_pattern_roundtrip_refuted.
Theorem C08_pattern_roundtrip_clean : forall p, sorted_strictly p ->
  Forall constructible p -> Forall (fun s => no_space (s_attr s)) p ->
  Forall (fun s => contains ", " (sel_str s) = false) p ->
  pattern_parse (pattern_str p) = Ok p.
Proof. exact pattern_parse_str. Qed.
Print Assumptions C08_pattern_roundtrip_clean.
Example C08_nonvacuous :
  let p := [ex_a; Sel "b" EQUAL (VStr "it's [odd],x"); ex_c] in
  homogeneous p /\ sorted_strictly p /\ Forall constructible p /\ Forall (fun s => no_space (s_attr s)) p /\
  Forall (fun s => contains ", " (sel_str s) = false) p.
Proof.
  split; [intros s t Hs Ht; in_cases; intros E; vm_compute in E; try discriminate; reflexivity|].
  split; [repeat constructor|]. split.
  { repeat (apply Forall_cons; [split; [reflexivity|simpl; try exact I; try (split; [lia|right; vm_compute; discriminate])]|]). apply Forall_nil. }
  split; repeat constructor.
Qed.

(** * C09 *)
Theorem C09_subgroup_roundtrip_refuted : exists g,
  Forall constructible (g_target g :: g_desc g) /\ Forall (fun s => no_space (s_attr s)) (g_target g :: g_desc g) /\
  sorted_strictly (g_desc g) /\ Forall (fun s => contains ", " (sel_str s) = false) (g_desc g) /\
  forall k, subgroup_parse (subgroup_str g) = Ok k -> subgroup_eq g k = false.
Proof.
  exists (SG [Sel "A" EQUAL (VInt 1); Sel "Target:" EQUAL (VInt 2)] (Sel "t" EQUAL (VStr "x"))).
  split; [repeat constructor|]. split; [repeat constructor|]. split; [repeat constructor|]. split; [repeat constructor|].
  intros k H. vm_compute in H. inversion H; subst; vm_compute; reflexivity.
Qed.
Print Assumptions C09_subgroup_roundtrip_refuted.
Theorem C09_subgroup_roundtrip_clean : forall g, let p := g_desc g in
  sorted_strictly p ->
  Forall constructible (g_target g :: p) -> Forall (fun s => no_space (s_attr s)) (g_target g :: p) ->
  Forall (fun s => contains ", " (sel_str s) = false) p ->
  contains ", Target: " (pattern_str p) = false -> contains ", Target: " (sel_str (g_target g)) = false ->
  subgroup_parse (subgroup_str g) = Ok g.
Proof. exact subgroup_parse_str. Qed.
Print Assumptions C09_subgroup_roundtrip_clean.
Example C09_nonvacuous :
  let g := SG [ex_a; ex_c] (Sel "class" EQUAL (VStr "yes, Target")) in
  contains ", Target: " (pattern_str (g_desc g)) = false /\ contains ", Target: " (sel_str (g_target g)) = false /\
  subgroup_parse (subgroup_str g) = Ok g.
Proof. repeat split. Qed.

(** * C10 *)
Definition ex_df := DF 3 [("age", [VInt 20; VInt 40; VInt 25]); ("color", [VStr "red"; VStr "red"; VStr "blue"]);
                          ("y", [VStr "p"; VStr "n"; VStr "p"])].
Theorem C10_is_contained_rowwise : forall p df m, wf_df df -> is_contained p df = Ok m ->
  length m = df_n df /\
  forall i, i < df_n df -> (nth i m false = true <-> forall s, In s p -> row_matches df i s).
Proof. exact is_contained_spec. Qed.
Print Assumptions C10_is_contained_rowwise.
Theorem C10_is_contained_defined : forall p df, (forall s, In s p -> evaluable df s) -> exists m, is_contained p df = Ok m.
Proof. exact is_contained_total. Qed.
Print Assumptions C10_is_contained_defined.
Example C10_nonvacuous : wf_df ex_df /\
  is_contained [ex_a; Sel "color" EQUAL (VStr "red")] ex_df = Ok [true; false; false].
Proof. split; [intros a c H; simpl in H; destruct H as [E|[E|[E|[]]]]; inversion E; reflexivity|vm_compute; reflexivity]. Qed.
(** Documented KeyError on a missing column: false because of the early stop; true when some row
    matches every selector that precedes the missing one. *)
Theorem C10_missing_column_refuted : exists p df m s, wf_df df /\ In s p /\ ~ has_column df (s_attr s) /\
  is_contained p df = Ok m.
Proof.
  exists [Sel "age" EQUAL (VInt 99); Sel "zip" EQUAL (VInt 1)], ex_df, [false; false; false], (Sel "zip" EQUAL (VInt 1)).
  split; [exact (proj1 C10_nonvacuous)|]. split; [right; now left|]. split; [intros (c & H); discriminate|vm_compute; reflexivity].
Qed.
Print Assumptions C10_missing_column_refuted.
Theorem C10_missing_column_reached : forall df l1 s l2 i, wf_df df -> i < df_n df ->
  (forall t, In t l1 -> evaluable df t /\ row_matches df i t) -> ~ has_column df (s_attr s) ->
  is_contained (l1 ++ s :: l2) df = Err KeyError.
Proof. exact is_contained_keyerror. Qed.
Print Assumptions C10_missing_column_reached.
Example C10_missing_nonvacuous : row_matches ex_df 0 ex_a /\ evaluable ex_df ex_a /\ ~ has_column ex_df "zip".
Proof.
  split; [exists (VInt 20); split; reflexivity|]. split; [|intros (c & H); discriminate].
  exists [VInt 20; VInt 40; VInt 25]. split; [reflexivity|]. intros v Hv. in_cases; eexists; reflexivity.
Qed.

(** * C11 *)
Theorem C11_filter_rows : forall df l r, wf_df df -> filter_by_list_of_selectors df l = Ok r ->
  rows r = map (row df) (filter (fun i => forallb (row_matchesb df i) l) (seq 0 (df_n df))) /\
  map fst (df_cols r) = (if df_n df =? 0 then [] else map fst (df_cols df)) /\ wf_df r.
Proof. exact filter_rows. Qed.
Print Assumptions C11_filter_rows.
(** Without rows the result has lost its columns, so it cannot be filtered again by name. *)
Theorem C11_empty_loses_columns : forall df l, df_n df = 0 -> filter_by_list_of_selectors df l = Ok (DF 0 []).
Proof. intros df l H. unfold filter_by_list_of_selectors. rewrite H. cbn [repeat]. destruct l; cbn; rewrite H; reflexivity. Qed.
Print Assumptions C11_empty_loses_columns.
Example C11_empty_nonvacuous : filter_by_list_of_selectors (DF 0 [("age", [])]) [] = Ok (DF 0 []).
Proof. reflexivity. Qed.
Theorem C11_filter_order_irrelevant : forall df l1 l2 r1 r2, wf_df df -> incl l1 l2 -> incl l2 l1 ->
  filter_by_list_of_selectors df l1 = Ok r1 -> filter_by_list_of_selectors df l2 = Ok r2 -> r1 = r2.
Proof. exact filter_rows_order. Qed.
Print Assumptions C11_filter_order_irrelevant.
Example C11_nonvacuous : filter_by_list_of_selectors ex_df [ex_a] =
  Ok (DF 2 [("age", [VInt 20; VInt 25]); ("color", [VStr "red"; VStr "blue"]); ("y", [VStr "p"; VStr "p"])]).
Proof. vm_compute; reflexivity. Qed.

(** * C12 *)
Theorem C12_refinement_is_inclusion_typed : forall h p q flag, homogeneous p -> homogeneous q ->
  sorted_strictly p -> sorted_strictly q -> typed_alike (p ++ q) ->
  (pattern_is_refinement h p q flag = true <-> incl p q /\ (incl q p -> flag = true)).
Proof. exact is_refinement_spec. Qed.
Print Assumptions C12_refinement_is_inclusion_typed.
Theorem C12_refinement_transitive : forall h p q r f1 f2, homogeneous p -> homogeneous q -> homogeneous r ->
  sorted_strictly p -> sorted_strictly q -> sorted_strictly r -> typed_alike (p ++ q) -> typed_alike (q ++ r) -> typed_alike (p ++ r) ->
  pattern_is_refinement h p q f1 = true -> pattern_is_refinement h q r f2 = true -> pattern_is_refinement h p r (f1 && f2) = true.
Proof.
  intros h p q r f1 f2 H1 H2 H3 S1 S2 S3 T1 T2 T3 R1 R2. apply is_refinement_spec in R1, R2; auto. apply is_refinement_spec; auto.
  destruct R1 as [I1 J1], R2 as [I2 J2]. split; [eapply incl_tran; eauto|]. intros I.
  rewrite J1 by (eapply incl_tran; eauto). apply J2. eapply incl_tran; eauto.
Qed.
(** The same for subgroups, whose targets must moreover be equal. *)
Theorem C12_subgroup_refinement_typed : forall h g k flag, homogeneous (g_desc g) -> homogeneous (g_desc k) ->
  sorted_strictly (g_desc g) -> sorted_strictly (g_desc k) -> typed_alike (g_desc g ++ g_desc k) -> typed_alike [g_target g; g_target k] ->
  (subgroup_is_refinement h g k flag = true <->
   incl (g_desc g) (g_desc k) /\ (incl (g_desc k) (g_desc g) -> flag = true) /\ g_target g = g_target k).
Proof.
  intros h g k flag H1 H2 S1 S2 T1 T2. unfold subgroup_is_refinement. rewrite andb_true_iff, is_refinement_spec by auto.
  assert (E : sel_eq (g_target g) (g_target k) = true <-> g_target g = g_target k).
  { split; [intros E; eapply (typed_alike_eq _ _ _ T2); cbn; auto|intros <-; apply sel_eq_refl]. }
  rewrite E. tauto.
Qed.
Print Assumptions C12_refinement_transitive. Print Assumptions C12_subgroup_refinement_typed.
Theorem C12_refinement_refuted : forall h : string -> Z, h "a = 1" <> h "a = 1.0" ->
  exists p q, pattern_eq p q = true /\ pattern_is_refinement h p q true = false.
Proof.
  intros h Hh. exists [Sel "a" EQUAL (VInt 1)], [Sel "a" EQUAL (VFloat 10 1)].
  split; [vm_compute; reflexivity|].
  unfold pattern_is_refinement, pyset_of, in_pyset, pyset_subset, sel_hash. simpl.
  change (sel_str (Sel "a" EQUAL (VInt 1))) with "a = 1". change (sel_str (Sel "a" EQUAL (VFloat 10 1))) with "a = 1.0".
  unfold in_pyset, sel_hash. simpl.
  change (sel_str (Sel "a" EQUAL (VInt 1))) with "a = 1". change (sel_str (Sel "a" EQUAL (VFloat 10 1))) with "a = 1.0".
  assert (E : (h "a = 1.0" =? h "a = 1")%Z = false) by (apply Z.eqb_neq; congruence).
  rewrite E. reflexivity.
Qed.
Print Assumptions C12_refinement_refuted.
Theorem C12_refinement_shrinks_coverage : forall df p q, incl p q -> coverage df q <= coverage df p.
Proof. exact coverage_anti. Qed.
Print Assumptions C12_refinement_shrinks_coverage.
Theorem C12_refinement_shrinks_tp_fp : forall g k df a b t a' b' t', wf_df df ->
  incl (g_desc g) (g_desc k) -> g_target g = g_target k ->
  subgroup_filter g df = Ok (a, b, t) -> subgroup_filter k df = Ok (a', b', t') ->
  count_true a' <= count_true a /\ count_true b' <= count_true b /\ t' = t.
Proof. exact refinement_counts. Qed.
Print Assumptions C12_refinement_shrinks_tp_fp.
Example C12_subgroup_nonvacuous : exists g k, typed_alike (g_desc g ++ g_desc k) /\ typed_alike [g_target g; g_target k] /\
  subgroup_is_refinement (fun s => Z.of_nat (String.length s)) g k false = true.
Proof.
  exists (SG [ex_a] ex_c), (SG [ex_a; ex_c] ex_c). split; [|split; [|vm_compute; reflexivity]]; (split;
  [intros s Hs|intros s t Hs Ht]; simpl g_desc in *; simpl g_target in *; simpl app in *; in_cases; simpl; try exact I;
   try (split; try lia; right; vm_compute; discriminate); intros E; vm_compute in E; try discriminate; exact I).
Qed.
Example C12_nonvacuous : typed_alike ([ex_a] ++ [ex_a; ex_c]) /\ sorted_strictly [ex_a; ex_c] /\
  pattern_is_refinement (fun s => Z.of_nat (String.length s)) [ex_a] [ex_a; ex_c] false = true.
Proof.
  split; [|split; [repeat constructor|vm_compute; reflexivity]]. split.
  - intros s Hs. simpl app in Hs. in_cases; simpl; try exact I; split; try lia; right; vm_compute; discriminate.
  - intros s t Hs Ht. simpl app in *. in_cases; intros E; vm_compute in E; try discriminate; exact I.
Qed.
Example C12_counts_nonvacuous :
  exists a b t a' b' t', subgroup_filter (SG [ex_a] (Sel "y" EQUAL (VStr "p"))) ex_df = Ok (a, b, t) /\
  subgroup_filter (SG [ex_a; Sel "color" EQUAL (VStr "red")] (Sel "y" EQUAL (VStr "p"))) ex_df = Ok (a', b', t') /\
  count_true a = 2 /\ count_true a' = 1.
Proof. do 6 eexists. repeat split; vm_compute; reflexivity. Qed.

(** * C13 *)
Theorem C13_subgroup_filter_partition : forall g df a b t, wf_df df -> subgroup_filter g df = Ok (a, b, t) ->
  length a = df_n df /\ length b = df_n df /\ length t = df_n df /\
  forall i, i < df_n df ->
    (nth i t false = true <-> row_matches df i (g_target g)) /\
    (let covered := forall s, In s (g_desc g) -> s_attr s <> s_attr (g_target g) /\ row_matches df i s in
     (nth i a false = true <-> covered /\ row_matches df i (g_target g)) /\
     (nth i b false = true <-> covered /\ ~ row_matches df i (g_target g))).
Proof. exact subgroup_filter_spec. Qed.
Print Assumptions C13_subgroup_filter_partition.
Theorem C13_target_in_description_reached : forall g df i l1 s l2, wf_df df -> i < df_n df ->
  has_column df (s_attr (g_target g)) -> g_desc g = l1 ++ s :: l2 -> s_attr s = s_attr (g_target g) ->
  (forall t, In t l1 -> s_attr t <> s_attr (g_target g) /\ evaluable df t /\ row_matches df i t) ->
  subgroup_filter g df = Err KeyError.
Proof. exact subgroup_filter_target_in_desc. Qed.
Print Assumptions C13_target_in_description_reached.
Example C13_nonvacuous :
  subgroup_filter (SG [ex_a] (Sel "y" EQUAL (VStr "p"))) ex_df = Ok ([true; false; true], [false; false; false], [true; false; true]) /\
  subgroup_filter (SG [ex_a; Sel "y" EQUAL (VStr "p")] (Sel "y" EQUAL (VStr "p"))) ex_df = Err KeyError.
Proof. split; vm_compute; reflexivity. Qed.
