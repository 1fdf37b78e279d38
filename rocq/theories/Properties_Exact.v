(** Exact conditions for the properties of the core classes that do not hold for every input: for each, an
    equivalence between the claim and a condition on the inputs. *)
From Verif Require Import Base CoreModel CoreSpec CoreOrder CorePattern CoreText CoreFrame CoreExact PatternExact Properties_Core.
Open Scope string_scope.
Open Scope list_scope.
Open Scope nat_scope.

(** * C02 *)
(** The texts of the selectors requested by the client. *)
Definition request_text (s : selector) : string := (s_attr s ++ " " ++ op_str (s_op s) ++ " " ++ quoted (s_val s))%string.
(** [T]: any set of requested triples. Every history over [T] gets the fields it asked for exactly when two different
    constructible triples of [T] are never written alike. *)
Theorem C02_fields_exact : forall T : selector -> Prop,
  (forall evs a o v ob, (forall a' o' v', In (EvNew a' o' v') evs -> T (Sel a' o' v')) -> T (Sel a o v) ->
     snd (selector_new (pool_after evs) a o v) = Ok ob ->
     s_attr (o_sel ob) = a /\ s_op (o_sel ob) = o /\ s_val (o_sel ob) = v) <->
  (forall s t, T s -> T t -> mk_selector (s_attr s) (s_op s) (s_val s) = Ok s -> mk_selector (s_attr t) (s_op t) (s_val t) = Ok t ->
     request_text s = request_text t -> s = t).
Proof.
  intros T. pose proof (pool_exact T) as [H1 H2]. split.
  - intros H. apply H1. intros evs a o v ob He HT E. destruct (H evs a o v ob He HT E) as (A & B & C). destruct (o_sel ob). cbn in *. congruence.
  - intros HA evs a o v ob He HT E. rewrite (H2 HA evs a o v ob He HT E). auto.
Qed.
Print Assumptions C02_fields_exact.
(** The errors do not depend on the history. *)
Theorem C02_errors_exact : forall evs a o v e,
  snd (selector_new (pool_after evs) a o v) = Err e <-> e = ValueError /\ is_str v = true /\ o <> EQUAL /\ o <> NOT_EQUAL.
Proof.
  intros evs a o v e. unfold selector_new, mk_selector. destruct v as [x|z|m k]; cbn [is_str].
  - destruct o; cbn; repeat (match goal with |- context [match ?d with Some _ => _ | None => _ end] => destruct d end); cbn; split; intros H; try discriminate H; try (destruct H as (_ & _ & H1 & H2); exfalso; congruence); try (destruct H as (-> & _); reflexivity); try (injection H as <-; repeat split; discriminate).
  - cbn. repeat (match goal with |- context [match ?d with Some _ => _ | None => _ end] => destruct d end); cbn; split; intros H; try discriminate H; destruct H as (_ & H & _); discriminate H.
  - cbn. repeat (match goal with |- context [match ?d with Some _ => _ | None => _ end] => destruct d end); cbn; split; intros H; try discriminate H; destruct H as (_ & H & _); discriminate H.
Qed.
Print Assumptions C02_errors_exact.
(** While the object is not collected, exactly the same triple gives the same object. *)
Theorem C02_identity_exact : forall T : selector -> Prop,
  (forall s t, T s -> T t -> mk_selector (s_attr s) (s_op s) (s_val s) = Ok s -> mk_selector (s_attr t) (s_op t) (s_val t) = Ok t ->
     request_text s = request_text t -> s = t) ->
  forall evs a o v evs' ob, (forall a' o' v', In (EvNew a' o' v') evs -> T (Sel a' o' v')) -> T (Sel a o v) ->
    snd (selector_new (pool_after evs) a o v) = Ok ob ->
    (forall a' o' v', In (EvNew a' o' v') evs' -> T (Sel a' o' v')) -> ~ In (EvCollect (o_id ob)) evs' ->
    forall a' o' v' ob', T (Sel a' o' v') -> snd (selector_new (pool_after (evs ++ EvNew a o v :: evs')) a' o' v') = Ok ob' ->
    (o_id ob' = o_id ob <-> a' = a /\ o' = o /\ v' = v).
Proof.
  intros T HA evs a o v evs' ob He HT Hob He' Hn a' o' v' ob' HT' Hob'.
  rewrite (new_identity T HA evs a o v evs' ob He HT Hob He') with (a' := a') (o' := o') (v' := v'); auto.
  - split; [intros E; injection E; auto|intros (-> & -> & ->); reflexivity].
  - apply Forall_forall. intros [x y z|i] I; cbn; [tauto|]. intros E. apply Hn. congruence.
Qed.
Print Assumptions C02_identity_exact.
(** A set of requests with spaces in the attribute names that the pool keeps apart, and one that it confuses. *)
Example C02_exact_nonvacuous :
  (let T := fun s => In s [Sel "age in years" LESS (VInt 3); Sel "age in" LESS (VInt 3); Sel "b" EQUAL (VStr "x y")] in
   forall s t, T s -> T t -> request_text s = request_text t -> s = t) /\
  (let s := Sel "a = 'b'" EQUAL (VStr "c") in let t := Sel "a" EQUAL (VStr "b' = 'c") in request_text s = request_text t /\ s <> t).
Proof.
  split.
  - intros T s t Hs Ht. unfold T in *. cbn [In] in *. repeat (destruct Hs as [<-|Hs]); try destruct Hs; repeat (destruct Ht as [<-|Ht]); try destruct Ht; intros E; try reflexivity; vm_compute in E; discriminate E.
  - split; [vm_compute; reflexivity|intros E; discriminate E].
Qed.

(** * C03 *)
Theorem C03_roundtrip_exact : forall s, constructible s ->
  ((exists t, sel_parse (sel_str s) = Ok t /\ sel_eq t s = true) <-> no_space (s_attr s)) /\
  (no_space (s_attr s) -> sel_parse (sel_str s) = Ok s).
Proof.
  intros s Hc. split; [split|].
  - intros (t & E & Q). destruct (sel_eq_parts _ _ Q) as (<- & _). exact (parse_no_space _ _ E).
  - intros N. exists s. split; [apply sel_parse_str; auto|apply sel_eq_refl].
  - intros N. apply sel_parse_str; auto.
Qed.
Print Assumptions C03_roundtrip_exact.
Example C03_exact_nonvacuous : constructible ex_c /\ no_space (s_attr ex_c) /\ constructible (Sel "a b" EQUAL (VInt 1)) /\ ~ no_space (s_attr (Sel "a b" EQUAL (VInt 1))).
Proof. repeat split; try discriminate; cbn; try lia. Qed.

(** * C05 *)
(** With [h] the hash of texts: equal selectors have equal hashes, whatever [h], exactly when their values have the same type. *)
Theorem C05_hash_exact : forall s t, wf_value (s_val s) -> wf_value (s_val t) -> sel_eq s t = true ->
  ((forall h, sel_hash h s = sel_hash h t) <-> same_type (s_val s) (s_val t)).
Proof. exact hash_exact. Qed.
Print Assumptions C05_hash_exact.
Example C05_exact_nonvacuous : sel_eq (Sel "a" LESS (VInt 2)) (Sel "a" LESS (VFloat 20 1)) = true /\ wf_value (VFloat 20 1) /\ ~ same_type (VInt 2) (VFloat 20 1).
Proof. split; [vm_compute; reflexivity|]. split; [cbn; lia|intros []]. Qed.

(** * C08 *)
Theorem C08_roundtrip_exact : forall p, sorted_strictly p -> Forall constructible p ->
  ((exists q, pattern_parse (pattern_str p) = Ok q /\ pattern_eq q p = true) <->
   forall s, In s p -> no_space (s_attr s) /\ contains ", " (sel_str s) = false) /\
  (forall q, pattern_parse (pattern_str p) = Ok q -> pattern_eq q p = true -> q = p).
Proof. intros p B C. rewrite <- Forall_forall. exact (pattern_parse_exact p B C). Qed.
Print Assumptions C08_roundtrip_exact.
(** * C09 *)
Theorem C09_roundtrip_exact : forall g, sorted_strictly (g_desc g) -> Forall constructible (g_target g :: g_desc g) ->
  ((exists k, subgroup_parse (subgroup_str g) = Ok k /\ subgroup_eq k g = true) <->
   (forall s, In s (g_target g :: g_desc g) -> no_space (s_attr s)) /\
   (forall s, In s (g_desc g) -> contains ", " (sel_str s) = false) /\
   contains ", Target: " (pattern_str (g_desc g)) = false /\ contains ", Target: " (sel_str (g_target g)) = false).
Proof. intros g B C. rewrite <- !Forall_forall. exact (subgroup_parse_exact g B C). Qed.
Print Assumptions C09_roundtrip_exact.
Example C08_C09_exact_nonvacuous :
  let p := [Sel "a b" EQUAL (VInt 1); Sel "c" EQUAL (VStr "x, y")] in
  sorted_strictly p /\ Forall constructible (Sel "t" EQUAL (VStr "n") :: p) /\ ~ (forall s, In s p -> no_space (s_attr s) /\ contains ", " (sel_str s) = false).
Proof.
  intros p. split; [repeat constructor|]. split; [repeat constructor|].
  intros H. destruct (H _ (or_introl eq_refl)) as [X _]. discriminate X.
Qed.

(** * C10 *)
(** The evaluation of [p] reaches [s]: the selectors before [s] can be evaluated and some row matches all of them. KeyError
    exactly when a selector whose column is missing is reached; TypeError exactly when a selector that cannot be compared with
    its column is reached; nothing else. *)
Theorem C10_errors_exact : forall p df, wf_df df ->
  let arrives s := exists l1 l2 i, p = l1 ++ s :: l2 /\ i < df_n df /\ forall t, In t l1 -> evaluable df t /\ row_matches df i t in
  (is_contained p df = Err KeyError <-> exists s, arrives s /\ ~ has_column df (s_attr s)) /\
  (is_contained p df = Err TypeError <-> exists s, arrives s /\ has_column df (s_attr s) /\ ~ evaluable df s) /\
  (forall e, is_contained p df = Err e -> e = KeyError \/ e = TypeError).
Proof. exact is_contained_exact. Qed.
Print Assumptions C10_errors_exact.
(** * C13 *)
Theorem C13_keyerror_exact : forall g df, wf_df df ->
  (subgroup_filter g df = Err KeyError <->
     ~ has_column df (s_attr (g_target g)) \/
     has_column df (s_attr (g_target g)) /\
     exists l1 s l2 i, g_desc g = l1 ++ s :: l2 /\ i < df_n df /\
       (s_attr s = s_attr (g_target g) \/ ~ has_column df (s_attr s)) /\
       (forall t, In t l1 -> s_attr t <> s_attr (g_target g) /\ evaluable df t /\ row_matches df i t)).
Proof. exact filter_exact. Qed.
Print Assumptions C13_keyerror_exact.
Example C10_C13_exact_nonvacuous : wf_df ex_df /\
  is_contained [ex_a; Sel "zip" EQUAL (VInt 1)] ex_df = Err KeyError /\ is_contained [ex_a; Sel "color" LESS (VInt 1)] ex_df = Err TypeError /\
  subgroup_filter (SG [ex_a; Sel "y" EQUAL (VStr "p")] (Sel "y" EQUAL (VStr "p"))) ex_df = Err KeyError.
Proof. split; [exact (proj1 C10_nonvacuous)|]. repeat split; vm_compute; reflexivity. Qed.

(** * C04 *)
(** A pair of selectors is not ordered exactly when they differ only in the kind of their values, written alike; for a pair
    with values of the same kind [<=] and [>=] are what they should be; for all pairs, [>] and [>=] are the converses. *)
Theorem C04_pair_exact : forall s t,
  let one := (sel_lt s t = true /\ sel_eq s t = false /\ sel_gt s t = false) \/ (sel_lt s t = false /\ sel_eq s t = true /\ sel_gt s t = false) \/ (sel_lt s t = false /\ sel_eq s t = false /\ sel_gt s t = true) in
  (~ one <-> s_attr s = s_attr t /\ s_op s = s_op t /\ is_str (s_val s) <> is_str (s_val t) /\ py_str (s_val s) = py_str (s_val t)) /\
  sel_gt s t = sel_lt t s /\ sel_ge s t = sel_le t s /\ (one -> sel_le s t = sel_lt s t || sel_eq s t).
Proof.
  intros s t one. rewrite <- unordered_pair. split; [|split; [apply sel_gt_lt|split; [apply sel_ge_le|]]].
  - unfold one. rewrite sel_gt_lt. pose proof (lt_asym s t) as A. pose proof (lt_not_eq s t) as B. pose proof (lt_asym t s) as C. pose proof (lt_not_eq t s) as D. rewrite (sel_eq_sym t s) in D.
    destruct (sel_lt s t), (sel_eq s t), (sel_lt t s); intuition congruence.
  - intros O. apply le_of_one. unfold one in O. rewrite sel_gt_lt in O. destruct O as [(X & _)|[(_ & X & _)|(_ & _ & X)]]; auto.
Qed.
Print Assumptions C04_pair_exact.
(** [<] orders a set of selectors (every two are ordered and it is transitive) whenever no two of them have values of
    different kinds for the same attribute and operator. *)
Theorem C04_set_ordered : forall U, homogeneous U -> strict_total U.
Proof. exact homogeneous_total. Qed.
Print Assumptions C04_set_ordered.
Example C04_exact_nonvacuous : let s := Sel "a" EQUAL (VInt 10) in let t := Sel "a" EQUAL (VStr "10") in let u := Sel "a" EQUAL (VStr "x") in
  (s_attr s = s_attr t /\ s_op s = s_op t /\ is_str (s_val s) <> is_str (s_val t) /\ py_str (s_val s) = py_str (s_val t)) /\
  strict_total [s; u] /\ ~ homogeneous [s; u].
Proof.
  intros s t u. split; [repeat split; discriminate|]. split.
  - intros a b c Ha Hb Hc. in_cases; vm_compute; split; auto; intros; discriminate.
  - intros H. specialize (H s u (or_introl eq_refl) (or_intror (or_introl eq_refl)) eq_refl eq_refl). discriminate H.
Qed.

(** * C06 *)
(** Every history over [U] behaves like the set exactly when [<] is a strict total order on [U]. *)
Theorem C06_history_exact : forall U,
  (forall l0 ops, incl l0 U -> incl (flat_map op_selectors ops) U ->
     sorted_strictly (pattern_history l0 ops) /\
     pattern_len (pattern_history l0 ops) = length (set_history l0 ops) /\
     forall s, In s U -> (pattern_contains (pattern_history l0 ops) s = true <-> member s (set_history l0 ops))) <->
  strict_total U.
Proof.
  intros U. split.
  - intros H. apply history_needs_total. intros l0 ops A B. destruct (H l0 ops A B) as (C & D & _). auto.
  - intros HU l0 ops A B. apply history_total; auto.
Qed.
Print Assumptions C06_history_exact.
(** * C07 *)
Theorem C07_equality_exact : forall U,
  (forall l1 l2, incl l1 U -> incl l2 U ->
     (pattern_eq (pattern_init l1) (pattern_init l2) = true <-> forall s, member s l1 <-> member s l2)) <->
  strict_total U.
Proof.
  intros U. split; [apply eq_needs_total|]. intros HU l1 l2 A B. apply (eq_total U); auto.
Qed.
Print Assumptions C07_equality_exact.
Theorem C07_inequality : forall p q, pattern_ne p q = negb (pattern_eq p q).
Proof. exact pattern_ne_eq. Qed.
Print Assumptions C07_inequality.
(** Adding a present selector, or adding and removing an absent one, gives an equal pattern. *)
Theorem C07_add_remove_exact : forall U l s, strict_total U -> incl l U -> In s U ->
  let p := pattern_init l in
  (member s l -> add_selector p s = p) /\ (~ member s l -> pattern_eq (remove_selector (add_selector p s) s) p = true).
Proof. exact add_remove_total. Qed.
Print Assumptions C07_add_remove_exact.
Example C06_C07_exact_nonvacuous : let U := [Sel "a" EQUAL (VInt 10); Sel "a" EQUAL (VStr "x"); Sel "b" LESS (VInt 3)] in strict_total U /\ ~ homogeneous U /\
  ~ strict_total [Sel "a" EQUAL (VInt 9); Sel "a" EQUAL (VInt 10); Sel "a" EQUAL (VStr "100")].
Proof.
  intros U. split; [|split].
  - intros a b c Ha Hb Hc. unfold U in *. in_cases; vm_compute; split; auto; intros; discriminate.
  - intros H. specialize (H _ _ (or_introl eq_refl) (or_intror (or_introl eq_refl)) eq_refl eq_refl). discriminate H.
  - intros H. destruct (H (Sel "a" EQUAL (VInt 9)) (Sel "a" EQUAL (VInt 10)) (Sel "a" EQUAL (VStr "100"))) as [_ K]; cbn; auto.
    specialize (K ltac:(vm_compute; reflexivity) ltac:(vm_compute; reflexivity)). vm_compute in K. discriminate K.
Qed.

(** * C12 *)
(** With [h] the hash of texts. *)
Theorem C12_refinement_exact : forall h p q flag, sorted_strictly p -> sorted_strictly q ->
  (pattern_is_refinement h p q flag = true <->
   (forall s, In s p -> exists t, In t q /\ sel_eq t s = true /\ sel_hash h t = sel_hash h s) /\ (length p = length q -> flag = true)).
Proof. exact refinement_exact. Qed.
Print Assumptions C12_refinement_exact.
(** It is inclusion up to [==], whatever the hash, exactly when an inclusion never rests on values of different types. *)
Theorem C12_inclusion_exact : forall p q, sorted_strictly p -> sorted_strictly q -> (forall s, In s (p ++ q) -> wf_value (s_val s)) ->
  ((forall h flag, pattern_is_refinement h p q flag = true <-> (forall s, In s p -> member s q) /\ ((forall t, In t q -> member t p) -> flag = true)) <->
   ((forall s, In s p -> member s q) -> forall s, In s p -> exists t, In t q /\ sel_eq t s = true /\ same_type (s_val t) (s_val s))).
Proof. exact refinement_eq_exact. Qed.
Print Assumptions C12_inclusion_exact.
Example C12_exact_nonvacuous : let p := [Sel "a" EQUAL (VInt 1)] in let q := [Sel "a" EQUAL (VFloat 10 1); Sel "b" EQUAL (VStr "x")] in
  sorted_strictly p /\ sorted_strictly q /\ (forall s, In s (p ++ q) -> wf_value (s_val s)) /\ (forall s, In s p -> member s q) /\
  ~ (forall s, In s p -> exists t, In t q /\ sel_eq t s = true /\ same_type (s_val t) (s_val s)).
Proof.
  intros p q. split; [repeat constructor|]. split; [repeat constructor|]. split; [intros s Hs; unfold p, q in *; cbn [app] in Hs; in_cases; cbn; auto; lia|]. split.
  - intros s Hs. unfold p in Hs. in_cases. exists (Sel "a" EQUAL (VFloat 10 1)). split; [now left|vm_compute; reflexivity].
  - intros H. destruct (H _ (or_introl eq_refl)) as (t & Ht & E & T). unfold q in Ht. in_cases; [destruct T|discriminate E].
Qed.
