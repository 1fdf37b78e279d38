(** Theorems C86: the methods of the core classes on arguments of any Python type. *)
From Verif Require Export CoreArgModel.
From Verif Require Import CoreSpec Properties_Core CoreOrder.
From Coq Require Import Lia.
Open Scope string_scope.
Open Scope list_scope.
Open Scope nat_scope.

(** * Specification: the annotations of the parameters *)
Inductive ty := TStr | TInt | TValue | TValueOrSeries | TOperator | TSelector | TPattern | TSubgroup | TFrame | TList.
Definition has_type (t : ty) (x : pobj) : Prop :=
  match t with
  | TStr => exists s, x = OVal (VStr s)
  | TInt => exists z, x = OVal (VInt z)
  | TValue => exists v, x = OVal v
  | TValueOrSeries => (exists v, x = OVal v) \/ (exists c, x = OSeries c) \/ (exists m, x = OMask m)
  | TOperator => exists o, x = OOp o
  | TSelector => exists s, x = OSel s
  | TPattern => exists l, x = OPat l
  | TSubgroup => exists d s, x = OSub d s
  | TFrame => exists f, x = OFrame f
  | TList => exists l, x = OList l
  end.
Definition ordering (k : cmp) : bool := match k with CEq | CNe => false | _ => true end.
(** The annotated parameters of each method ([refinement_candidate] and [refinement_of_itself] apart; patterns and subgroups have no
    ordering methods). *)
Definition signature (c : call) : list (pobj * ty) :=
  match c with
  | CEvaluate _ l r => [(l, TValueOrSeries); (r, TValueOrSeries)]
  | COpParse t | CSelParse t | CPatParse t | CSubParse t => [(t, TStr)]
  | COpCompare _ _ x => [(x, TOperator)]
  | CSelector a o v => [(a, TStr); (o, TOperator); (v, TValue)]
  | CMatch _ a v => [(a, TStr); (v, TValueOrSeries)]
  | CSelCompare _ _ x => [(x, TSelector)]
  | CPattern x => [(x, TList)]
  | CAdd x | CRemove x | CIn x => [(x, TSelector)]
  | CRemoveIndex i | CGet i => [(i, TInt)]
  | CContained df => [(df, TFrame)]
  | CRefinement _ _ | CSubRefinement _ _ _ _ => []
  | CPatCompare k x => if ordering k then [] else [(x, TPattern)]
  | CSubgroup d t => [(d, TPattern); (t, TSelector)]
  | CSubFilter _ _ df => [(df, TFrame)]
  | CSubCompare k _ _ x => if ordering k then [] else [(x, TSubgroup)]
  | CFilterBy df l => [(df, TFrame); (l, TList)]
  end.

(** * Refused calls *)
(** A call with an argument that is not of the annotated type (exactly str, int, float, list, Series, DataFrame, Operator; an instance of
    Selector, Pattern, Subgroup) raises TypeError and changes nothing, whatever the other arguments are. In particular a comparison with
    another kind of object raises: it never answers False. *)
Theorem C86_refused : forall h c w x t, In (x, t) (signature c) -> ~ has_type t x -> perform h c w = (w, Err TypeError).
Proof.
  intros h c w x t I N.
  assert (NS : t = TStr -> str_of x = Err TypeError) by (intros ->; destruct x as [[]| | | | | | | | | | | |]; try reflexivity; elim N; eexists; reflexivity).
  assert (NI : t = TInt -> int_of x = Err TypeError) by (intros ->; destruct x as [[]| | | | | | | | | | | |]; try reflexivity; elim N; eexists; reflexivity).
  assert (NV : t = TValue -> val_of x = Err TypeError) by (intros ->; destruct x; try reflexivity; elim N; eexists; reflexivity).
  assert (NO : t = TOperator -> op_of x = Err TypeError) by (intros ->; destruct x; try reflexivity; elim N; eexists; reflexivity).
  assert (NL : t = TSelector -> sel_of x = Err TypeError) by (intros ->; destruct x; try reflexivity; elim N; eexists; reflexivity).
  assert (NP : t = TPattern -> pat_of x = Err TypeError) by (intros ->; destruct x; try reflexivity; elim N; eexists; reflexivity).
  assert (NG : t = TSubgroup -> sub_of x = Err TypeError) by (intros ->; destruct x; try reflexivity; elim N; eexists _, _; reflexivity).
  assert (NF : t = TFrame -> frame_of x = Err TypeError) by (intros ->; destruct x; try reflexivity; elim N; eexists; reflexivity).
  assert (NT : t = TList -> list_of x = Err TypeError) by (intros ->; destruct x; try reflexivity; elim N; eexists; reflexivity).
  assert (ER : t = TValueOrSeries -> forall o y, evaluate_any o x y = Err TypeError /\ evaluate_any o y x = Err TypeError).
  { intros -> o y. destruct x; try (elim N; cbn [has_type]; eauto; fail); split; destruct y; reflexivity. }
  assert (EM : t = TValueOrSeries -> forall s a, match_any s a x = Err TypeError).
  { intros -> s a. unfold match_any. destruct (str_of a) as [n|e] eqn:E; cbn [bind]; [|destruct a as [[]| | | | | | | | | | | |]; cbn in E; congruence].
    destruct x; try (elim N; cbn [has_type]; eauto; fail); reflexivity. }
  destruct c; cbn [signature] in I; try (destruct (ordering k) eqn:K); cbn [In] in I; unfold perform, keep, update;
    repeat match goal with I : _ \/ _ |- _ => destruct I as [I|I] end; try contradiction; injection I as <- <-;
    rewrite ?NS, ?NI, ?NV, ?NO, ?NL, ?NP, ?NG, ?NF, ?NT by reflexivity; cbn [bind]; try reflexivity.
  - rewrite (proj1 (ER eq_refl _ _)). reflexivity.
  - rewrite (proj2 (ER eq_refl _ _)). reflexivity.
  - destruct (str_of a) as [n|e] eqn:E; cbn [bind]; [reflexivity|]. destruct a as [[]| | | | | | | | | | | |]; cbn in E; congruence.
  - destruct (str_of a) as [n|e] eqn:E; cbn [bind]; [|destruct a as [[]| | | | | | | | | | | |]; cbn in E; congruence].
    destruct (op_of o) as [p|e] eqn:F; cbn [bind]; [reflexivity|]. destruct o; cbn in F; congruence.
  - unfold match_any. rewrite NS by reflexivity. reflexivity.
  - rewrite EM by reflexivity. reflexivity.
  - unfold pattern_any. rewrite NT by reflexivity. reflexivity.
  - unfold add_any. rewrite NL by reflexivity. reflexivity.
  - unfold remove_any. rewrite NL by reflexivity. reflexivity.
  - unfold remove_index_any. rewrite NI by reflexivity. reflexivity.
  - unfold get_any. rewrite NI by reflexivity. reflexivity.
  - unfold contains_any. rewrite NL by reflexivity. reflexivity.
  - unfold is_contained_any. rewrite NF by reflexivity. reflexivity.
  - unfold pattern_compare_any. destruct k; cbn in K; try discriminate; rewrite NP by reflexivity; reflexivity.
  - unfold subgroup_any. rewrite NP by reflexivity. reflexivity.
  - unfold subgroup_any. destruct (pat_of d) as [l|e] eqn:E; cbn [bind]; [rewrite NL by reflexivity; reflexivity|destruct d; cbn in E; congruence].
  - unfold sub_filter_any. rewrite NF by reflexivity. reflexivity.
  - unfold sub_compare_any. destruct k; cbn in K; try discriminate; rewrite NG by reflexivity; reflexivity.
  - destruct (frame_of df) as [f|e] eqn:E; cbn [bind]; [reflexivity|destruct df; cbn in E; congruence].
Qed.
(** Any call that raises, for whatever reason, leaves the pattern and the pool of selectors as they were. *)
Theorem C86_unchanged : forall h c w e, snd (perform h c w) = Err e -> fst (perform h c w) = w.
Proof.
  intros h c w e H. destruct c; cbn [perform keep] in *; try reflexivity;
    try (unfold update in *; match goal with |- context [match ?m with Ok _ => _ | Err _ => _ end] => destruct m end; cbn [fst snd] in *; [discriminate|reflexivity]).
  destruct (do n <- str_of a; do p <- op_of o; do u <- val_of v; Ok (n, p, u)) as [[[n p] u]|]; [|reflexivity].
  unfold selector_new in *. destruct (mk_selector n p u) as [s|]; [|destruct w; reflexivity].
  destruct (dict_get (pool_key n p u) (p_dict (w_pool w))); cbn [fst snd] in H; discriminate.
Qed.
Print Assumptions C86_refused. Print Assumptions C86_unchanged.

(** * Accepted calls: the methods that C01-C13 are about *)
Lemma selectors_of_map : forall p, selectors_of (map OSel p) = Some p.
Proof. induction p as [|s p IH]; [reflexivity|]. cbn [map selectors_of]. rewrite IH. reflexivity. Qed.
Lemma selectors_of_inv : forall l p, selectors_of l = Some p -> l = map OSel p.
Proof.
  induction l as [|x l IH]; intros p H; cbn [selectors_of] in H; [injection H as <-; reflexivity|]. destruct x; try discriminate.
  destruct (selectors_of l) as [r|]; [|discriminate]. injection H as <-. cbn [map]. rewrite (IH r eq_refl). reflexivity.
Qed.
Lemma insert_sel : forall s p, insert_m (OSel s) (map OSel p) = Ok (map OSel (insert_by sel_lt s p)).
Proof. intros s p. induction p as [|t p IH]; [reflexivity|]. cbn [map insert_m insert_by obj_lt bind]. destruct (sel_lt t s); [rewrite IH|]; reflexivity. Qed.
Lemma sort_sel : forall p, sort_m (map OSel p) = Ok (map OSel (sort_by sel_lt p)).
Proof. induction p as [|s p IH]; [reflexivity|]. cbn [map sort_m sort_by]. rewrite IH. cbn [bind]. apply insert_sel. Qed.
Lemma bisect_sel : forall p s, bisect_m (map OSel p) (OSel s) = Ok (bisect_left sel_lt p s).
Proof.
  intros p s. unfold bisect_m, bisect_left. rewrite map_length. 
  assert (G : forall fuel lo hi, bisect_m_loop (map OSel p) (OSel s) fuel lo hi = Ok (bisect_loop sel_lt p s fuel lo hi)); [|apply G].
  induction fuel as [|fuel IH]; intros lo hi; [reflexivity|]. cbn [bisect_m_loop bisect_loop]. destruct (lo <? hi); [|reflexivity]. cbv zeta.
  rewrite nth_error_map. destruct (nth_error p ((lo + hi) / 2)) as [y|]; cbn [option_map]; [|reflexivity]. cbn [obj_lt bind]. destruct (sel_lt y s); apply IH.
Qed.
Lemma dedup_sel : forall p last, dedup_m (option_map OSel last) (map OSel p) = Ok (map OSel (dedup_consecutive last p)).
Proof.
  induction p as [|e p IH]; intros last; [reflexivity|]. cbn [map dedup_m dedup_consecutive]. destruct last as [x|]; cbn [option_map obj_ne bind].
  - destruct (sel_ne x e); [|apply (IH (Some x))]. pose proof (IH (Some e)) as K. cbn [option_map] in K. rewrite K. reflexivity.
  - pose proof (IH (Some e)) as K. cbn [option_map] in K. rewrite K. reflexivity.
Qed.
Lemma pattern_sel : forall l, pattern_any (OList (map OSel l)) = Ok (map OSel (pattern_init l)).
Proof. intros l. unfold pattern_any, pattern_init. cbn [list_of bind]. rewrite sort_sel. cbn [bind]. apply (dedup_sel _ None). Qed.
Lemma insert_map : forall i s p, list_insert i (OSel s) (map OSel p) = map OSel (list_insert i s p).
Proof. intros. unfold list_insert. rewrite map_app, firstn_map. cbn [map]. rewrite skipn_map. reflexivity. Qed.
Lemma pop_map : forall i p, list_pop i (map OSel p) = map OSel (list_pop i p).
Proof. intros. unfold list_pop. rewrite map_app, firstn_map, skipn_map. reflexivity. Qed.
Lemma contained_sel : forall df p acc, contained_any df acc (map OSel p) = contained_loop df acc p.
Proof.
  intros df p. induction p as [|s p IH]; intros acc; cbn [map contained_any contained_loop]; [reflexivity|]. destruct (any_true acc); [|reflexivity].
  destruct (df_col df (s_attr s)) as [col|]; cbn [bind]; [|reflexivity]. destruct (op_evaluate_series (s_op s) col (s_val s)) as [m|]; cbn [bind]; [apply IH|reflexivity].
Qed.
Lemma differ_sel : forall p q, length p = length q -> differ_any (map OSel p) (map OSel q) = Ok (pattern_ne_loop p q).
Proof. induction p as [|s p IH]; intros [|t q] L; try discriminate L; [reflexivity|]. cbn [map differ_any pattern_ne_loop obj_ne bind]. destruct (sel_ne s t); [reflexivity|]. apply IH. injection L; auto. Qed.
Lemma ne_sel : forall p q, pattern_ne_any (map OSel p) (map OSel q) = Ok (pattern_ne p q).
Proof. intros p q. unfold pattern_ne_any, pattern_ne. rewrite !map_length. destruct (length p =? length q) eqn:E; cbn [negb]; [|reflexivity]. apply differ_sel. apply Nat.eqb_eq. exact E. Qed.
Lemma eq_not_ne : forall p q, negb (pattern_ne p q) = pattern_eq p q.
Proof.
  intros p q. unfold pattern_ne, pattern_eq. destruct (length p =? length q); cbn [negb]; [|reflexivity]. revert q.
  induction p as [|s p IH]; intros [|t q]; try reflexivity. cbn [pattern_ne_loop pattern_eq_loop]. destruct (sel_ne s t); [reflexivity|apply IH].
Qed.
(** Pattern: the constructor on a list of selectors, and the methods of a pattern that holds selectors. *)
Theorem C86_pattern_methods : forall h pl p, let w := Store pl (map OSel p) in
  (forall l, perform h (CPattern (OList (map OSel l))) w = (w, Ok (OPat (map OSel (pattern_init l))))) /\
  (forall s, perform h (CAdd (OSel s)) w = (Store pl (map OSel (add_selector p s)), Ok ONone)) /\
  (forall s, perform h (CRemove (OSel s)) w = (Store pl (map OSel (remove_selector p s)), Ok ONone)) /\
  (forall i, perform h (CRemoveIndex (OVal (VInt i))) w =
     match remove_by_index p i with Ok q => (Store pl (map OSel q), Ok ONone) | Err e => (w, Err e) end) /\
  (forall i, perform h (CGet (OVal (VInt i))) w = (w, do s <- get_selector p i; Ok (OSel s))) /\
  (forall s, perform h (CIn (OSel s)) w = (w, Ok (OBool (pattern_contains p s)))) /\
  (forall df, perform h (CContained (OFrame df)) w = (w, do m <- is_contained p df; Ok (OMask m))) /\
  (forall q b, perform h (CRefinement (OPat (map OSel q)) (OBool b)) w = (w, Ok (OBool (pattern_is_refinement h p q b)))) /\
  (forall q, perform h (CPatCompare CEq (OPat (map OSel q))) w = (w, Ok (OBool (pattern_eq p q)))) /\
  (forall q, perform h (CPatCompare CNe (OPat (map OSel q))) w = (w, Ok (OBool (pattern_ne p q)))).
Proof.
  intros h pl p w. unfold w. clear w. cbn [perform keep w_self w_pool]. split; [|split; [|split; [|split; [|split; [|split; [|split; [|split; [|split]]]]]]]]; intros.
  - rewrite pattern_sel. reflexivity.
  - unfold add_any, add_selector. cbn [sel_of bind]. rewrite bisect_sel. cbn [bind]. cbv zeta. rewrite nth_error_map. destruct (nth_error p _) as [x|]; cbn [option_map].
    + cbn [obj_ne bind update]. destruct (sel_ne x s); [rewrite insert_map|]; reflexivity.
    + cbn [update w_pool]. rewrite map_app. reflexivity.
  - unfold remove_any, remove_selector. cbn [sel_of bind]. rewrite bisect_sel. cbn [bind]. cbv zeta. rewrite nth_error_map. destruct (nth_error p _) as [x|]; cbn [option_map].
    + cbn [obj_eq bind update]. destruct (sel_eq x s); [rewrite pop_map|]; reflexivity.
    + reflexivity.
  - unfold remove_index_any, remove_by_index. cbn [int_of bind]. unfold py_index. rewrite map_length.
    destruct (0 <=? i)%Z; [destruct (i <? Z.of_nat (length p))%Z|destruct (0 <=? i + Z.of_nat (length p))%Z]; cbn [update w_pool]; rewrite ?pop_map; reflexivity.
  - unfold get_any, get_selector. cbn [int_of bind]. unfold py_index. rewrite map_length.
    destruct (0 <=? i)%Z; [destruct (i <? Z.of_nat (length p))%Z|destruct (0 <=? i + Z.of_nat (length p))%Z]; rewrite ?nth_error_map; try reflexivity; destruct (nth_error p _); reflexivity.
  - unfold contains_any, pattern_contains. cbn [sel_of bind]. destruct p as [|x p]; [reflexivity|]. cbn [map]. change (OSel x :: map OSel p) with (map OSel (x :: p)). rewrite bisect_sel. cbn [bind].
    rewrite nth_error_map. destruct (nth_error (x :: p) _) as [y|]; reflexivity.
  - unfold is_contained_any, is_contained. cbn [frame_of bind]. rewrite contained_sel. reflexivity.
  - unfold refinement_any, pattern_is_refinement. rewrite !selectors_of_map. cbv zeta. destruct (_ <? _); [reflexivity|]. destruct (_ && _); reflexivity.
  - unfold pattern_compare_any. cbn [pat_of bind]. rewrite ne_sel. cbn [bind]. rewrite eq_not_ne. reflexivity.
  - unfold pattern_compare_any. cbn [pat_of bind]. rewrite ne_sel. reflexivity.
Qed.
(** The comparison methods of the two classes. *)
Definition operators_by (k : cmp) : operator -> operator -> bool :=
  match k with CEq => op_eq | CNe => op_ne | CLt => op_lt | CGt => op_gt | CLe => op_le | CGe => op_ge end.
Definition selectors_by (k : cmp) : selector -> selector -> bool :=
  match k with CEq => sel_eq | CNe => sel_ne | CLt => sel_lt | CGt => sel_gt | CLe => sel_le | CGe => sel_ge end.
(** Operator, Selector, Subgroup and filter_by_list_of_selectors. *)
Theorem C86_other_methods : forall h w,
  (forall o v u, perform h (CEvaluate o (OVal v) (OVal u)) w = (w, do b <- op_evaluate o v u; Ok (OBool b))) /\
  (forall o c u, perform h (CEvaluate o (OSeries c) (OVal u)) w = (w, do m <- op_evaluate_series o c u; Ok (OMask m))) /\
  (forall k o p, perform h (COpCompare k o (OOp p)) w = (w, Ok (OBool (operators_by k o p)))) /\
  (forall n o v, perform h (CSelector (OVal (VStr n)) (OOp o) (OVal v)) w =
     match selector_new (w_pool w) n o v with (q, Ok ob) => (Store q (w_self w), Ok (OSel (o_sel ob))) | (q, Err e) => (Store q (w_self w), Err e) end) /\
  (forall s n v, perform h (CMatch s (OVal (VStr n)) (OVal v)) w = (w, do b <- sel_match s n v; Ok (OBool b))) /\
  (forall s n c, perform h (CMatch s (OVal (VStr n)) (OSeries c)) w =
     (w, do r <- sel_match_series s n c; Ok (match r with inl b => OBool b | inr m => OMask m end))) /\
  (forall k s t, perform h (CSelCompare k s (OSel t)) w = (w, Ok (OBool (selectors_by k s t)))) /\
  (forall d t, perform h (CSubgroup (OPat (map OSel d)) (OSel t)) w = (w, Ok (OSub (map OSel d) t))) /\
  (forall d t df, perform h (CSubFilter (map OSel d) t (OFrame df)) w =
     (w, do r <- subgroup_filter (SG d t) df; Ok (OTuple [OMask (fst (fst r)); OMask (snd (fst r)); OMask (snd r)]))) /\
  (forall d t d' t' b, perform h (CSubRefinement (map OSel d) t (OSub (map OSel d') t') (OBool b)) w =
     (w, Ok (OBool (subgroup_is_refinement h (SG d t) (SG d' t') b)))) /\
  (forall d t d' t', perform h (CSubCompare CEq (map OSel d) t (OSub (map OSel d') t')) w = (w, Ok (OBool (subgroup_eq (SG d t) (SG d' t'))))) /\
  (forall d t d' t', perform h (CSubCompare CNe (map OSel d) t (OSub (map OSel d') t')) w = (w, Ok (OBool (subgroup_ne (SG d t) (SG d' t'))))) /\
  (forall df l, perform h (CFilterBy (OFrame df) (OList (map OSel l))) w = (w, do f <- filter_by_list_of_selectors df l; Ok (OFrame f))).
Proof.
  intros h w. split; [reflexivity|]. split; [reflexivity|]. split; [intros []; reflexivity|]. split; [reflexivity|]. split; [|split; [|split; [intros []; reflexivity|split; [reflexivity|split; [|split; [|split; [|split]]]]]]]; intros.
  - cbn [perform keep]. unfold match_any, sel_match. cbn [str_of bind]. destruct (String.eqb n (s_attr s)); reflexivity.
  - cbn [perform keep]. unfold match_any, sel_match_series. cbn [str_of bind]. destruct (String.eqb n (s_attr s)); [|reflexivity]. cbn [evaluate_any]. destruct (op_evaluate_series _ _ _); reflexivity.
  - cbn [perform keep]. unfold sub_filter_any, subgroup_filter. cbn [frame_of bind g_desc g_target]. destruct (df_drop df (s_attr t)) as [rest|]; cbn [bind]; [|reflexivity].
    destruct (df_col df (s_attr t)) as [c|]; cbn [bind]; [|reflexivity]. rewrite contained_sel. unfold is_contained. destruct (contained_loop rest _ d); cbn [bind]; [|reflexivity].
    destruct (op_evaluate_series (s_op t) c (s_val t)); reflexivity.
  - cbn [perform keep]. unfold sub_refinement_any, subgroup_is_refinement. cbn [g_desc g_target]. unfold refinement_any, pattern_is_refinement. rewrite !selectors_of_map. cbv zeta.
    destruct (_ <? _); [reflexivity|]. destruct (_ && pyset_subset _ _ _); cbn [bind truth].
    + destruct b; reflexivity.
    + destruct (pyset_subset _ _ _); reflexivity.
  - cbn [perform keep]. unfold sub_compare_any, subgroup_eq. cbn [sub_of bind fst snd g_desc g_target]. rewrite ne_sel. cbn [bind]. rewrite eq_not_ne. reflexivity.
  - cbn [perform keep]. unfold sub_compare_any, subgroup_ne. cbn [sub_of bind fst snd g_desc g_target]. rewrite ne_sel. reflexivity.
  - cbn [perform keep]. unfold filter_by_list_of_selectors. cbn [frame_of list_of bind]. rewrite contained_sel. destruct (contained_loop _ _ _); reflexivity.
Qed.
Print Assumptions C86_pattern_methods. Print Assumptions C86_other_methods.

(** Two Series (with the default index) are compared row by row; of other lengths they are refused. *)
Theorem C86_two_series : forall h w o c d,
  (length c <> length d -> perform h (CEvaluate o (OSeries c) (OSeries d)) w = (w, Err ValueError)) /\
  (length c = length d -> perform h (CEvaluate o (OSeries c) (OSeries d)) w =
     (w, do m <- map_res (fun p => op_evaluate o (fst p) (snd p)) (combine c d); Ok (OMask m))).
Proof.
  intros h w o c d. cbn [perform keep evaluate_any]. split; intros H.
  - apply Nat.eqb_neq in H. rewrite H. reflexivity.
  - assert (P : pairwise o c d = map_res (fun p => op_evaluate o (fst p) (snd p)) (combine c d)).
    { revert d H. induction c as [|x c IH]; intros [|y d] H; try discriminate H; [reflexivity|]. cbn [pairwise combine map_res fst snd]. rewrite IH by (cbn [length] in H; congruence). reflexivity. }
    apply Nat.eqb_eq in H. rewrite H, P. reflexivity.
Qed.
(** Beside numbers True is 1 and False is 0: the list of a pattern made of a bool and an int. *)
Theorem C86_bools : forall h w (b : bool) z, let n := (if b then 1 else 0)%Z in
  perform h (CPattern (OList [OBool b; OVal (VInt z)])) w =
    (w, Ok (OPat (if (z <? n)%Z then [OVal (VInt z); OBool b] else if (n <? z)%Z then [OBool b; OVal (VInt z)] else [OBool b]))).
Proof.
  intros h w b z n. cbn [perform keep]. unfold pattern_any. cbn [list_of bind sort_m insert_m].
  assert (L : obj_lt (OVal (VInt z)) (OBool b) = Ok (z <? n)%Z) by (destruct b; cbn -[Z.ltb]; rewrite Z.mul_1_r; reflexivity). rewrite L. cbn [bind].
  assert (D1 : obj_ne (OVal (VInt z)) (OBool b) = Ok (negb (z =? n)%Z)) by (destruct b; cbn -[Z.eqb]; rewrite ?Z.mul_1_r; reflexivity).
  assert (D2 : obj_ne (OBool b) (OVal (VInt z)) = Ok (negb (n =? z)%Z)) by (destruct b; cbn -[Z.eqb]; rewrite ?Z.mul_1_r; reflexivity).
  destruct (z <? n)%Z eqn:E; cbn [bind dedup_m insert_m].
  - rewrite ?D1, ?D2. cbn [bind]. apply Z.ltb_lt in E. replace (n =? z)%Z with false by (symmetry; apply Z.eqb_neq; lia). replace (z =? n)%Z with false by (symmetry; apply Z.eqb_neq; lia). reflexivity.
  - rewrite ?D1, ?D2. cbn [bind]. apply Z.ltb_ge in E. destruct (n <? z)%Z eqn:F.
    + apply Z.ltb_lt in F. replace (n =? z)%Z with false by (symmetry; apply Z.eqb_neq; lia). replace (z =? n)%Z with false by (symmetry; apply Z.eqb_neq; lia). reflexivity.
    + apply Z.ltb_ge in F. replace (n =? z)%Z with true by (symmetry; apply Z.eqb_eq; lia). replace (z =? n)%Z with true by (symmetry; apply Z.eqb_eq; lia). reflexivity.
Qed.
Print Assumptions C86_two_series. Print Assumptions C86_bools.

(** * Patterns of any objects *)
Definition is_selector (x : pobj) : Prop := exists s, x = OSel s.
Definition all_selectors (l : list pobj) : Prop := forall x, In x l -> is_selector x.
Definition no_selector (l : list pobj) : Prop := forall x, In x l -> ~ is_selector x.
Lemma sel_dec : forall x, {is_selector x} + {~ is_selector x}.
Proof. intros x. destruct x; try (right; intros [u E]; discriminate E). left. eexists; reflexivity. Qed.
Lemma py_lt_err : forall v w e, py_lt v w = Err e -> e = TypeError.
Proof.
  intros v w e H. unfold py_lt in H. destruct v, w; try congruence;
    repeat match type of H with context [match ?m with Some _ => _ | None => _ end] => destruct m as [[? ?]|] end; congruence.
Qed.
Lemma lt_mixed : forall x y b, obj_lt x y = Ok b -> (is_selector x <-> is_selector y).
Proof.
  intros x y b H. destruct x, y; cbn in H; try discriminate; try (split; intros [s E]; discriminate E); split; intros _; eexists; reflexivity.
Qed.
Lemma insert_sound : forall x l r, insert_m x l = Ok r -> (all_selectors l \/ no_selector l) ->
  (forall y, In y r <-> y = x \/ In y l) /\ (all_selectors r \/ no_selector r).
Proof.
  intros x l. induction l as [|y l IH]; intros r H U; cbn [insert_m] in H.
  - injection H as <-. split; [cbn [In]; intros y; split; [intros [->|[]]; auto|intros [->|[]]; auto]|].
    destruct (sel_dec x) as [S|S]; [left|right]; intros z [<-|[]]; exact S.
  - destruct (obj_lt y x) as [b|e] eqn:E; cbn [bind] in H; [|discriminate]. apply lt_mixed in E. destruct b.
    + destruct (insert_m x l) as [r'|e] eqn:F; cbn [bind] in H; [|discriminate]. injection H as <-.
      destruct (IH r' eq_refl) as [M V]; [destruct U as [U|U]; [left|right]; intros z Z; apply U; right; exact Z|]. split.
      * intros z. cbn [In]. rewrite M. tauto.
      * destruct U as [U|U]; [left|right]; intros z [<-|Z]; try (apply U; left; reflexivity); apply M in Z; destruct Z as [->|Z]; try (apply U; right; exact Z).
        -- apply E. apply U. left. reflexivity.
        -- intros S. apply E in S. revert S. apply U. left. reflexivity.
    + injection H as <-. split; [intros z; cbn [In]; split; intros [A|A]; auto|].
      destruct U as [U|U]; [left|right]; intros z [<-|Z]; try (apply U; exact Z).
      * apply E. apply U. left. reflexivity.
      * intros S. apply E in S. revert S. apply U. left. reflexivity.
Qed.
Lemma sort_sound : forall l r, sort_m l = Ok r -> (forall y, In y r <-> In y l) /\ (all_selectors r \/ no_selector r).
Proof.
  induction l as [|x l IH]; intros r H; cbn [sort_m] in H.
  - injection H as <-. split; [tauto|left; intros x []].
  - destruct (sort_m l) as [r'|e]; cbn [bind] in H; [|discriminate]. destruct (IH r' eq_refl) as [M U]. destruct (insert_sound _ _ _ H U) as [N V].
    split; [|exact V]. intros y. rewrite N, M. cbn [In]. split; intros [A|A]; auto.
Qed.
Lemma dedup_sound : forall l last r, dedup_m last l = Ok r -> incl r l.
Proof.
  induction l as [|x l IH]; intros last r H; cbn [dedup_m] in H; [injection H as <-; intros y []|].
  destruct last as [z|]; [destruct (obj_ne z x) as [[|]|]; cbn [bind] in H; try discriminate|cbn [bind] in H].
  1,3: destruct (dedup_m (Some x) l) as [r'|] eqn:F; cbn [bind] in H; [|discriminate]; injection H as <-; intros y [<-|Y]; [left; reflexivity|right; apply (IH _ _ F); exact Y].
  intros y Y. right. apply (IH _ _ H). exact Y.
Qed.
(** A list with a selector and something that is no selector is never accepted by [Pattern]... *)
Theorem C86_mixed : forall h w l, ~ all_selectors l -> ~ no_selector l -> exists e, perform h (CPattern (OList l)) w = (w, Err e).
Proof.
  intros h w l A N. cbn [perform keep]. unfold pattern_any. cbn [list_of bind]. destruct (sort_m l) as [r|e] eqn:E; cbn [bind]; [|exists e; reflexivity].
  destruct (sort_sound _ _ E) as [M [U|U]]; [elim A|elim N]; intros x X; apply U, M; exact X.
Qed.
(** ... and with [None], strings, numbers, booleans, operators, patterns, subgroups as the other elements the exception is TypeError. *)
Definition simple (x : pobj) : bool := match x with OVal _ | OBool _ | ONone | OOp _ | OSel _ | OPat _ | OSub _ _ => true | _ => false end.
Lemma lt_simple : forall x y e, simple x = true -> simple y = true -> obj_lt x y = Err e -> e = TypeError.
Proof.
  intros x y e X Y H. destruct x; try discriminate X; destruct y; try discriminate Y; cbn -[py_lt] in H; try congruence; apply py_lt_err in H; exact H.
Qed.
Lemma insert_simple : forall x l e, simple x = true -> forallb simple l = true -> insert_m x l = Err e -> e = TypeError.
Proof.
  intros x l e X. induction l as [|y l IH]; intros L H; cbn [insert_m] in H; [discriminate|]. cbn [forallb] in L. apply andb_prop in L. destruct L as [Y L].
  destruct (obj_lt y x) as [[|]|e'] eqn:E; cbn [bind] in H; [|discriminate|].
  - destruct (insert_m x l) as [r|e']; cbn [bind] in H; [discriminate|]. injection H as ->. apply IH; [exact L|reflexivity].
  - injection H as ->. apply (lt_simple _ _ _ Y X E).
Qed.
Theorem C86_mixed_type_error : forall h w l, ~ all_selectors l -> ~ no_selector l -> forallb simple l = true ->
  perform h (CPattern (OList l)) w = (w, Err TypeError).
Proof.
  intros h w l A N S. destruct (C86_mixed h w l A N) as [e H]. cbn [perform keep] in *. unfold pattern_any in *. cbn [list_of bind] in *.
  destruct (sort_m l) as [r|e'] eqn:E; cbn [bind] in *.
  - destruct (sort_sound _ _ E) as [M [U|U]]; [elim A|elim N]; intros x X; apply U, M; exact X.
  - assert (T : e' = TypeError); [|rewrite T; reflexivity]. clear -S E. revert e' E. induction l as [|x l IH]; intros e' E; cbn [sort_m] in E; [discriminate|].
    cbn [forallb] in S. apply andb_prop in S. destruct S as [X S]. destruct (sort_m l) as [r|e''] eqn:F; cbn [bind] in E.
    + apply (insert_simple x r e' X); [|exact E]. apply forallb_forall. intros y Y. rewrite forallb_forall in S. apply S. apply (proj1 (sort_sound _ _ F)). exact Y.
    + injection E as ->. apply IH; [exact S|reflexivity].
Qed.

(** Nor is a list of two or more elements one of which is [None], a pattern or a subgroup. *)
Definition unordered (x : pobj) : bool := match x with ONone | OPat _ | OSub _ _ => true | _ => false end.
Lemma lt_unordered : forall x y, simple x = true -> simple y = true -> unordered x || unordered y = true -> obj_lt x y = Err TypeError.
Proof. intros x y X Y U. destruct x; try discriminate X; destruct y; try discriminate Y; try discriminate U; reflexivity. Qed.
Lemma insert_not_nil : forall x l, insert_m x l <> Ok [].
Proof. intros x [|y l]; cbn [insert_m]; [discriminate|]. destruct (obj_lt y x) as [[|]|]; cbn [bind]; try discriminate. destruct (insert_m x l); discriminate. Qed.
Theorem C86_unordered : forall h w l x, forallb simple l = true -> In x l -> unordered x = true -> 2 <= length l ->
  perform h (CPattern (OList l)) w = (w, Err TypeError).
Proof.
  intros h w l x S I U L. cbn [perform keep]. unfold pattern_any. cbn [list_of bind]. assert (E : sort_m l = Err TypeError); [|rewrite E; reflexivity].
  assert (G : forall l e, forallb simple l = true -> sort_m l = Err e -> e = TypeError).
  { clear. induction l as [|x l IH]; intros e S E; cbn [sort_m] in E; [discriminate|]. cbn [forallb] in S. apply andb_prop in S. destruct S as [X S]. destruct (sort_m l) as [r|e'] eqn:F; cbn [bind] in E.
    - apply (insert_simple x r e X); [|exact E]. apply forallb_forall. intros y Y. rewrite forallb_forall in S. apply S. apply (proj1 (sort_sound _ _ F)). exact Y.
    - injection E as ->. apply IH; [exact S|reflexivity]. }
  revert I L. induction l as [|a l IH]; intros I L; [destruct I|]. cbn [sort_m]. assert (S' := S). cbn [forallb] in S'. apply andb_prop in S'. destruct S' as [A S'].
  destruct (sort_m l) as [r|e] eqn:F; cbn [bind]; [|rewrite (G _ _ S' F); reflexivity]. pose proof (proj1 (sort_sound _ _ F)) as M.
  destruct l as [|b l]; [cbn [length] in L; lia|]. destruct r as [|c r]; [exfalso; apply (proj2 (M b)); left; reflexivity|].
  assert (C : simple c = true) by (rewrite forallb_forall in S'; apply S', M; left; reflexivity).
  cbn [insert_m]. destruct I as [->|I].
  - rewrite (lt_unordered c x C A); [reflexivity|]. rewrite U. apply orb_true_r.
  - destruct l as [|d l].
    + destruct I as [->|[]]. cbn in F. injection F as <- <-. rewrite (lt_unordered x a C A); [reflexivity|]. rewrite U. reflexivity.
    + specialize (IH S' I). cbn [length] in IH. specialize (IH ltac:(lia)). discriminate IH.
Qed.

(** * Histories *)
Definition performs (h : string -> Z) (cs : list call) (w : store) : store := fold_left (fun w c => fst (perform h c w)) cs w.
Lemma bisect_compares : forall y l x i, bisect_m (y :: l) x = Ok i -> exists z b, In z (y :: l) /\ obj_lt z x = Ok b.
Proof.
  intros y l x i H. unfold bisect_m in H. set (a := y :: l) in *. assert (L : 0 < length a) by (unfold a; cbn [length]; lia). cbn [bisect_m_loop] in H.
  destruct (Nat.ltb_spec 0 (length a)); [|lia]. cbv zeta in H. destruct (nth_error a ((0 + length a) / 2)) as [z|] eqn:N.
  - destruct (obj_lt z x) as [b|] eqn:E; cbn [bind] in H; [|discriminate]. exists z, b. split; [apply nth_error_In in N; exact N|exact E].
  - apply nth_error_None in N. exfalso. assert ((0 + length a) / 2 < length a) by (apply Nat.div_lt_upper_bound; lia). lia.
Qed.
Lemma pop_incl : forall A i (l : list A), incl (list_pop i l) l.
Proof.
  intros A i l x H. unfold list_pop in H. apply in_app_or in H. destruct H as [H|H].
  - rewrite <- (firstn_skipn i l). apply in_or_app. left. exact H.
  - rewrite <- (firstn_skipn (S i) l). apply in_or_app. right. exact H.
Qed.
Lemma insert_in : forall A i (x : A) l y, In y (list_insert i x l) -> y = x \/ In y l.
Proof.
  intros A i x l y H. unfold list_insert in H. apply in_app_or in H. rewrite <- (firstn_skipn i l). destruct H as [H|[<-|H]]; [right|left; reflexivity|right]; apply in_or_app; auto.
Qed.
(** A pattern never holds a selector together with something else, whatever calls are made on it, and a pattern that holds selectors only
    goes on holding selectors only. *)
Theorem C86_pure : forall h cs w, all_selectors (w_self w) -> all_selectors (w_self (performs h cs w)).
Proof.
  intros h cs. unfold performs. induction cs as [|c cs IH]; intros w A; [exact A|]. cbn [fold_left]. apply IH. clear IH.
  destruct c; cbn [perform keep fst]; try exact A.
  - destruct (do n <- str_of a; do p <- op_of o; do u <- val_of v; Ok (n, p, u)) as [[[n p] u]|]; [|exact A]. destruct (selector_new (w_pool w) n p u) as [q [ob|e]]; exact A.
  - unfold add_any. destruct x; try exact A. cbn [sel_of bind]. destruct (bisect_m (w_self w) (OSel s)) as [i|]; cbn [bind update fst]; [|exact A].
    assert (S : is_selector (OSel s)) by (eexists; reflexivity).
    destruct (nth_error (w_self w) i) as [y|].
    + destruct (obj_ne y (OSel s)) as [[|]|]; cbn [bind update fst w_self]; try exact A. intros z Z. apply insert_in in Z. destruct Z as [->|Z]; [exact S|apply A; exact Z].
    + cbn [update fst w_self]. intros z Z. apply in_app_or in Z. destruct Z as [Z|[<-|[]]]; [apply A; exact Z|exact S].
  - unfold remove_any. destruct x; try exact A. cbn [sel_of bind]. destruct (bisect_m (w_self w) (OSel s)) as [i|]; cbn [bind update fst]; [|exact A].
    destruct (nth_error (w_self w) i) as [y|]; [|exact A]. destruct (obj_eq y (OSel s)) as [[|]|]; cbn [bind update fst w_self]; try exact A. intros z Z. apply A. apply pop_incl in Z. exact Z.
  - unfold remove_index_any. destruct (int_of i) as [k|]; cbn [bind update fst]; [|exact A]. destruct (py_index (w_self w) k) as [j|]; [|exact A]. cbn [update fst w_self].
    intros z Z. apply A. apply pop_incl in Z. exact Z.
Qed.
Theorem C86_never_mixed : forall h cs w l w' p,
  perform h (CPattern (OList l)) w = (w', Ok (OPat p)) ->
  let v := performs h cs (Store (w_pool w) p) in all_selectors (w_self v) \/ no_selector (w_self v).
Proof.
  intros h cs w l w' p H. cbn [perform keep] in H. unfold pattern_any in H. cbn [list_of bind] in H. destruct (sort_m l) as [r|e] eqn:E; cbn [bind] in H; [|discriminate].
  destruct (dedup_m None r) as [q|e] eqn:D; cbn [bind] in H; [|discriminate]. injection H as _ <-. apply sort_sound in E. destruct E as [_ U]. apply dedup_sound in D.
  assert (V : all_selectors q \/ no_selector q) by (destruct U as [U|U]; [left|right]; intros x X; apply U, D; exact X). clear -V. cbv zeta.
  assert (G : forall cs v, all_selectors (w_self v) \/ no_selector (w_self v) -> all_selectors (w_self (performs h cs v)) \/ no_selector (w_self (performs h cs v))); [|apply G; exact V].
  clear. induction cs as [|c cs IH]; intros w U; [exact U|]. unfold performs in *. cbn [fold_left]. apply IH. clear IH.
  destruct U as [U|U]; [left; apply (C86_pure h [c]); exact U|].
  destruct c; cbn [perform keep fst]; try (right; exact U).
  - destruct (do n <- str_of a; do p <- op_of o; do u <- val_of v; Ok (n, p, u)) as [[[n p] u]|]; [|right; exact U]. destruct (selector_new (w_pool w) n p u) as [q [ob|e]]; right; exact U.
  - unfold add_any. destruct x; try (right; exact U). cbn [sel_of bind]. destruct (w_self w) as [|y l] eqn:W.
    + left. cbn. intros z [<-|[]]. eexists; reflexivity.
    + destruct (bisect_m (y :: l) (OSel s)) as [i|] eqn:B; cbn [bind update fst]; [|right; rewrite W; exact U].
      exfalso. destruct (bisect_compares _ _ _ _ B) as (z & b & I & L). apply lt_mixed in L. apply (U z I). apply L. eexists; reflexivity.
  - unfold remove_any. destruct x; try (right; exact U). cbn [sel_of bind]. destruct (bisect_m (w_self w) (OSel s)) as [i|]; cbn [bind update fst]; [|right; exact U].
    destruct (nth_error (w_self w) i) as [y|]; [|right; exact U]. destruct (obj_eq y (OSel s)) as [[|]|]; cbn [bind update fst w_self]; try (right; exact U). right. intros z Z. apply U. apply pop_incl in Z. exact Z.
  - unfold remove_index_any. destruct (int_of i) as [k|]; cbn [bind update fst]; [|right; exact U]. destruct (py_index (w_self w) k) as [j|]; [|right; exact U]. cbn [update fst w_self].
    right. intros z Z. apply U. apply pop_incl in Z. exact Z.
Qed.
(** A list of one element is accepted whatever the element is: the elements are not tested.  The error comes later. *)
Theorem C86_unchecked_element : forall h w x, perform h (CPattern (OList [x])) w = (w, Ok (OPat [x])).
Proof. reflexivity. Qed.
Theorem C86_unchecked_later : forall h pl x l, opaque x = false -> no_selector (x :: l) -> let w := Store pl (x :: l) in
  (forall s, (forall y, In y l -> opaque y = false) ->
    perform h (CAdd (OSel s)) w = (w, Err TypeError) /\ perform h (CRemove (OSel s)) w = (w, Err TypeError) /\ perform h (CIn (OSel s)) w = (w, Err TypeError)) /\
  (forall df, 0 < df_n df -> perform h (CContained (OFrame df)) w = (w, Err AttributeError)) /\
  (forall df, df_n df = 0 -> perform h (CContained (OFrame df)) w = (w, Ok (OMask []))).
Proof.
  intros h pl x l O N w. split; [|split].
  - intros s Y. assert (B : bisect_m (x :: l) (OSel s) = Err TypeError).
    { unfold bisect_m. cbn [bisect_m_loop]. destruct (Nat.ltb_spec 0 (length (x :: l))) as [P|P]; [|cbn [length] in P; lia]. cbv zeta.
      destruct (nth_error (x :: l) ((0 + length (x :: l)) / 2)) as [z|] eqn:E.
      - apply nth_error_In in E. assert (Z : opaque z = false) by (destruct E as [<-|E]; auto). assert (NS : ~ is_selector z) by (apply N; exact E).
        assert (L : obj_lt z (OSel s) = Err TypeError); [|rewrite L; reflexivity]. destruct z; try reflexivity; try discriminate Z. elim NS. eexists; reflexivity.
      - apply nth_error_None in E. exfalso. assert ((0 + length (x :: l)) / 2 < length (x :: l)) by (apply Nat.div_lt_upper_bound; lia). lia. }
    cbn [perform keep w_self]. unfold w. cbn [w_self]. unfold add_any, remove_any, contains_any. cbn [sel_of bind]. rewrite B. split; [|split]; reflexivity.
  - intros df D. unfold w. cbn [perform keep w_self]. unfold is_contained_any. cbn [frame_of bind]. destruct (df_n df) as [|n]; [lia|]. cbn [repeat contained_any].
    cbn [any_true existsb orb]. unfold any_true. cbn [existsb orb]. destruct x; try discriminate O; try reflexivity. elim (N (OSel s)); [left; reflexivity|eexists; reflexivity].
  - intros df D. unfold w. cbn [perform keep w_self]. unfold is_contained_any. cbn [frame_of bind]. rewrite D. reflexivity.
Qed.

(** * [is_refinement]: no parameter is tested *)
(** The answer for a pattern that holds the same selectors is [refinement_of_itself] itself, the object, of whatever type; any other
    answer is a boolean. *)
Theorem C86_refinement : forall h pl p q b, let w := Store pl (map OSel p) in
  perform h (CRefinement (OPat (map OSel q)) b) w =
    (w, Ok (if eqb (pattern_is_refinement h p q true) (pattern_is_refinement h p q false) then OBool (pattern_is_refinement h p q true) else b)).
Proof.
  intros h pl p q b w. unfold w. cbn [perform keep w_self]. unfold refinement_any, pattern_is_refinement. rewrite !selectors_of_map. cbv zeta.
  destruct (_ <? _); [reflexivity|]. destruct (_ && _); [reflexivity|]. rewrite eqb_reflx. reflexivity.
Qed.
Lemma in_pyset_self : forall h s l, In s l -> in_pyset h s l = true.
Proof. intros h s l H. unfold in_pyset. apply existsb_exists. exists s. split; [exact H|]. rewrite Z.eqb_refl, CoreOrder.sel_eq_refl. reflexivity. Qed.
Theorem C86_refinement_of_itself : forall h pl p b, let w := Store pl (map OSel p) in
  perform h (CRefinement (OPat (map OSel p)) b) w = (w, Ok b).
Proof.
  intros h pl p b w. unfold w. rewrite C86_refinement. unfold pattern_is_refinement. rewrite Nat.ltb_irrefl, Nat.eqb_refl.
  assert (S : forall a, pyset_subset h a a = true) by (intros a; unfold pyset_subset; apply forallb_forall; intros x X; apply in_pyset_self; exact X).
  rewrite S. reflexivity.
Qed.
(** An argument that is not a pattern (a subgroup) gives AttributeError, here not TypeError. *)
Theorem C86_refinement_refused : forall h pl p d t x b, let w := Store pl (map OSel p) in opaque x = false ->
  (~ has_type TPattern x -> perform h (CRefinement x b) w = (w, Err AttributeError)) /\
  (~ has_type TSubgroup x -> perform h (CSubRefinement d t x b) w = (w, Err AttributeError)).
Proof.
  intros h pl p d t x b w O. unfold w. cbn [perform keep w_self]. unfold refinement_any, sub_refinement_any. rewrite selectors_of_map. split; intros N.
  - destruct x; try discriminate O; try reflexivity. elim N. eexists; reflexivity.
  - destruct x; try discriminate O; try reflexivity. elim N. eexists _, _; reflexivity.
Qed.
(** A subgroup with the same description: a false [refinement_of_itself] is returned as it is, a true one gives way to the comparison of the
    targets, and one without a truth value (a Series) raises. *)
Theorem C86_subgroup_refinement : forall h w d t t' b,
  snd (perform h (CSubRefinement (map OSel d) t (OSub (map OSel d) t') b) w) =
    match truth b with Ok false => Ok b | Ok true => Ok (OBool (sel_eq t t')) | Err e => Err e end.
Proof.
  intros h w d t t' b. cbn [perform keep snd]. unfold sub_refinement_any. pose proof (C86_refinement_of_itself h (w_pool w) d b) as H. cbv zeta in H. unfold perform, keep in H. cbn [w_self] in H.
  assert (R : refinement_any h (map OSel d) (OPat (map OSel d)) b = Ok b) by (apply (f_equal snd) in H; exact H). rewrite R. cbn [bind]. destruct (truth b) as [[|]|]; reflexivity.
Qed.

(** * Values that are accepted although the documentation of [Selector] excludes them *)
(** selector.py:15 documents a non-empty name. *)
Definition accepts_empty_name : Prop := exists h w o v s, snd (perform h (CSelector (OVal (VStr "")) (OOp o) (OVal v)) w) = Ok (OSel s) /\ s_attr s = "".
Theorem C86_empty_name_refused_refuted : accepts_empty_name.
Proof. exists (fun _ => 0%Z), (Store (Pool 0 []) []), EQUAL, (VInt 1), (Sel "" EQUAL (VInt 1)). split; reflexivity. Qed.
(** What [Selector] accepts, exactly: a str, an Operator, and a str with EQUAL or NOT_EQUAL, or an int or float. *)
Theorem C86_selector_exact : forall h w a o v,
  (exists s, snd (perform h (CSelector a o v) w) = Ok s) <->
  exists n p u, a = OVal (VStr n) /\ o = OOp p /\ v = OVal u /\ ((exists t, u = VStr t) -> p = EQUAL \/ p = NOT_EQUAL).
Proof.
  intros h w a o v. split.
  - intros [s H]. assert (A : has_type TStr a).
    { destruct a as [[]| | | | | | | | | | | |]; try (cbn in H; discriminate H). eexists; reflexivity. }
    assert (B : has_type TOperator o).
    { destruct A as [n ->]. destruct o; try (cbn in H; discriminate H). eexists; reflexivity. }
    assert (C : has_type TValue v).
    { destruct A as [n ->], B as [p ->]. destruct v; try (cbn in H; discriminate H). eexists; reflexivity. }
    destruct A as [n ->], B as [p ->], C as [u ->]. exists n, p, u. split; [reflexivity|]. split; [reflexivity|]. split; [reflexivity|].
    intros [t ->]. destruct p; auto; cbn in H; discriminate H.
  - intros (n & p & u & -> & -> & -> & K). cbn [perform]. cbn [str_of op_of val_of bind]. unfold selector_new. unfold mk_selector.
    assert (E : is_str u && op_ne p EQUAL && op_ne p NOT_EQUAL = false).
    { destruct u as [t|z|m e]; try reflexivity. destruct (K (ex_intro _ t eq_refl)) as [->| ->]; reflexivity. }
    rewrite E. destruct (dict_get _ _); eexists; reflexivity.
Qed.

(** * The hypotheses are met *)
Example C86_cases : let h := (fun _ => 0%Z) in let a := Sel "a" EQUAL (VStr "x") in let b := Sel "b" GREATER (VInt 3) in
  let w := Store (Pool 0 []) [] in
  perform h (CSelector (OVal (VStr "a")) (OOp EQUAL) (OBool true)) w = (w, Err TypeError) /\
  perform h (CSelector (OVal (VStr "a")) (OOp LESS) (OVal (VStr "x"))) w = (w, Err ValueError) /\
  perform h (CPattern (OList [OSel b; OSel a; OSel b])) w = (w, Ok (OPat [OSel a; OSel b])) /\
  perform h (CPattern (OList [OVal (VInt 3); OVal (VInt 1); OVal (VInt 3)])) w = (w, Ok (OPat [OVal (VInt 1); OVal (VInt 3)])) /\
  perform h (CPattern (OList [OSel b; OVal (VInt 1)])) w = (w, Err TypeError) /\
  perform h (CPattern (OTuple [OSel b])) w = (w, Err TypeError) /\
  perform h (CPattern (OList [ONone; ONone])) w = (w, Err TypeError) /\
  perform h (CPattern (OList [ONone])) w = (w, Ok (OPat [ONone])) /\
  perform h (CAdd (OSel a)) (Store (Pool 0 []) [ONone]) = (Store (Pool 0 []) [ONone], Err TypeError) /\
  perform h (CSelCompare CEq a (OVal (VStr "a = 'x'"))) w = (w, Err TypeError) /\
  perform h (CRefinement (OPat [OSel a]) (OVal (VStr "yes"))) (Store (Pool 0 []) [OSel a]) = (Store (Pool 0 []) [OSel a], Ok (OVal (VStr "yes"))) /\
  w_self (performs h [CAdd (OSel b); CAdd (OSel a); CAdd ONone; CAdd (OSel b); CRemove (OSel b)] w) = [OSel a].
Proof. vm_compute. repeat split. Qed.
Example C86_signature_met : In (OBool true, TValue) (signature (CSelector (OVal (VStr "a")) (OOp EQUAL) (OBool true))) /\ ~ has_type TValue (OBool true).
Proof. split; [cbn; auto|intros [v E]; discriminate E]. Qed.
Example C86_mixed_met : let l := [OSel (Sel "b" GREATER (VInt 3)); ONone] in ~ all_selectors l /\ ~ no_selector l /\ forallb simple l = true.
Proof.
  cbv zeta. split; [|split; [|reflexivity]].
  - intros A. destruct (A ONone) as [s E]; [cbn; auto|discriminate E].
  - intros N. apply (N (OSel (Sel "b" GREATER (VInt 3)))); [left; reflexivity|eexists; reflexivity].
Qed.
Print Assumptions C86_unordered. Print Assumptions C86_mixed. Print Assumptions C86_mixed_type_error. Print Assumptions C86_pure. Print Assumptions C86_never_mixed.
Print Assumptions C86_unchecked_element. Print Assumptions C86_unchecked_later. Print Assumptions C86_refinement. Print Assumptions C86_refinement_of_itself.
Print Assumptions C86_refinement_refused. Print Assumptions C86_subgroup_refinement. Print Assumptions C86_empty_name_refused_refuted. Print Assumptions C86_selector_exact.
