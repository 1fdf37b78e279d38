(** More of C01-C13 and C23: access by index, negated equalities, [Selector.match]. *)
From Verif Require Import Base CoreModel CoreSpec CoreOrder CorePattern CoreFrame SubgroupListModel.
From Coq Require Import Lia ZArith ZifyBool.
Open Scope string_scope.
Open Scope nat_scope.
Open Scope list_scope.

(** * Access by index *)
Lemma element_in n i k : element_number n i = Some k -> k < n /\ (i = Z.of_nat k \/ i = Z.of_nat k - Z.of_nat n)%Z.
Proof.
  unfold element_number. destruct ((0 <=? i) && (i <? Z.of_nat n))%Z%bool eqn:E.
  - intros [= <-]. lia.
  - destruct ((- Z.of_nat n <=? i) && (i <? 0))%Z%bool eqn:F; [|discriminate]. intros [= <-]. lia.
Qed.
Lemma element_out n i : element_number n i = None <-> (i < - Z.of_nat n \/ Z.of_nat n <= i)%Z.
Proof.
  unfold element_number. destruct ((0 <=? i) && (i <? Z.of_nat n))%Z%bool eqn:E.
  - split; [discriminate|intro; exfalso; lia].
  - destruct ((- Z.of_nat n <=? i) && (i <? 0))%Z%bool eqn:F; [split; [discriminate|intro; exfalso; lia]|].
    split; [intros _; lia|reflexivity].
Qed.
(** What Python's [l[i]] gives: [x] stands in [l] with [a] elements before it and [b] behind it, and [i] is
    [a] or [-(b+1)]. *)
Definition at_index {A} (l : list A) (i : Z) (x : A) : Prop :=
  exists a b, l = a ++ x :: b /\ (i = Z.of_nat (length a) \/ i = - Z.of_nat (S (length b)))%Z.
Definition out_of_range {A} (l : list A) (i : Z) : Prop :=
  (i < - Z.of_nat (length l) \/ Z.of_nat (length l) <= i)%Z.
Lemma py_index_at {A} (l : list A) i k x : py_index l i = Some k -> nth_error l k = Some x -> at_index l i x.
Proof.
  rewrite index_spec. intros H N. destruct (element_in _ _ _ H) as (K & D).
  destruct (nth_error_split l k N) as (a & b & -> & La). exists a, b. split; [reflexivity|].
  rewrite app_length in D. cbn [length] in D. lia.
Qed.
Lemma at_py_index {A} (a : list A) x b i : (i = Z.of_nat (length a) \/ i = - Z.of_nat (S (length b)))%Z ->
  py_index (a ++ x :: b) i = Some (length a).
Proof.
  intro D. rewrite index_spec. destruct (element_number (length (a ++ x :: b)) i) as [k|] eqn:E.
  - destruct (element_in _ _ _ E) as (K & D'). f_equal. rewrite app_length in *. cbn [length] in *. lia.
  - apply element_out in E. rewrite app_length in E. cbn [length] in E. lia.
Qed.
Lemma get_at {A} (l : list A) i x :
  match py_index l i with Some k => match nth_error l k with Some y => Ok y | None => Err IndexError end | None => Err IndexError end
    = Ok x <-> at_index l i x.
Proof.
  split.
  - destruct (py_index l i) as [k|] eqn:E; [|discriminate]. destruct (nth_error l k) eqn:N; [|discriminate].
    intros [= <-]. exact (py_index_at l i k _ E N).
  - intros (a & b & -> & D). rewrite (at_py_index a x b i D).
    rewrite nth_error_app2, Nat.sub_diag by apply le_n. reflexivity.
Qed.
Lemma get_out {A} (l : list A) i :
  match py_index l i with Some k => match nth_error l k with Some y => Ok y | None => Err IndexError end | None => Err IndexError end
    = Err IndexError <-> out_of_range l i.
Proof.
  unfold out_of_range. rewrite <- element_out, index_spec. destruct (element_number (length l) i) as [k|] eqn:E.
  - destruct (element_in _ _ _ E) as (K & _). destruct (nth_error l k) eqn:N; [split; discriminate|].
    apply nth_error_None in N. lia.
  - split; reflexivity.
Qed.

Lemma pop_middle {A} (a : list A) x b : list_pop (length a) (a ++ x :: b) = a ++ b.
Proof.
  unfold list_pop. rewrite firstn_app, firstn_all, Nat.sub_diag, firstn_O, app_nil_r. f_equal.
  induction a as [|y a IH]; [reflexivity|exact IH].
Qed.
Theorem C06_get_selector : forall p i,
  (forall s, get_selector p i = Ok s <-> at_index p i s) /\
  (forall e, get_selector p i = Err e <-> e = IndexError /\ out_of_range p i).
Proof.
  intros p i. split; [intro s; apply get_at|]. intro e. rewrite <- (get_out p i). unfold get_selector.
  destruct (py_index p i) as [k|]; [destruct (nth_error p k)|]; split; try discriminate; try (intros [? ?]; discriminate);
  try (intros [= <-]; auto); intros [-> _]; reflexivity.
Qed.
Print Assumptions C06_get_selector.
Theorem C06_remove_by_index : forall p i,
  (forall q, remove_by_index p i = Ok q <->
     exists a s b, p = a ++ s :: b /\ q = a ++ b /\ (i = Z.of_nat (length a) \/ i = - Z.of_nat (S (length b)))%Z) /\
  (forall e, remove_by_index p i = Err e <-> e = IndexError /\ out_of_range p i).
Proof.
  intros p i. unfold remove_by_index. split.
  - intro q. split.
    + destruct (py_index p i) as [k|] eqn:E; [|discriminate]. intros [= <-].
      pose proof E as E0. rewrite index_spec in E0. destruct (element_in _ _ _ E0) as (K & D).
      destruct (nth_error p k) as [s|] eqn:N; [|apply nth_error_None in N; lia].
      destruct (nth_error_split p k N) as (a & b & L & La). exists a, s, b. subst p k.
      split; [reflexivity|]. split; [|rewrite app_length in D; cbn [length] in D; lia].
      apply pop_middle.
    + intros (a & s & b & -> & -> & D). rewrite (at_py_index a s b i D). f_equal. apply pop_middle.
  - intro e. rewrite <- (get_out p i). destruct (py_index p i) as [k|] eqn:E.
    + split; [discriminate|]. intros (_ & G). destruct (nth_error p k) eqn:N; [discriminate|].
      rewrite index_spec in E. destruct (element_in _ _ _ E) as (K & _). apply nth_error_None in N. lia.
    + split; [intros [= <-]; auto|intros (-> & _); reflexivity].
Qed.
Print Assumptions C06_remove_by_index.
Example C06_access_nonvacuous :
  let p := [Sel "a" EQUAL (VInt 1); Sel "b" EQUAL (VInt 2); Sel "c" EQUAL (VInt 3)] in
  get_selector p 1 = Ok (Sel "b" EQUAL (VInt 2)) /\ get_selector p (-1) = Ok (Sel "c" EQUAL (VInt 3)) /\
  get_selector p 3 = Err IndexError /\ get_selector p (-4) = Err IndexError /\
  remove_by_index p (-3) = Ok [Sel "b" EQUAL (VInt 2); Sel "c" EQUAL (VInt 3)].
Proof. repeat split. Qed.

(** The five getters of a subgroup list. *)
Theorem C23_get_by_index : forall A (f : sglist -> list A) l i,
  (forall x, sl_get f l i = Ok x <-> at_index (f l) i x) /\
  (forall e, sl_get f l i = Err e <-> e = IndexError /\ out_of_range (f l) i).
Proof.
  intros A f l i. split; [intro s; apply get_at|]. intro e. rewrite <- (get_out (f l) i). unfold sl_get.
  destruct (py_index (f l) i) as [k|]; [destruct (nth_error (f l) k)|]; split; try discriminate; try (intros [? ?]; discriminate);
  try (intros [= <-]; auto); intros [-> _]; reflexivity.
Qed.
Print Assumptions C23_get_by_index.

(** * Negated equalities *)
Lemma op_ne_negb a b : op_ne a b = negb (op_eq a b).
Proof. destruct a, b; reflexivity. Qed.
Lemma sel_ne_negb s t : sel_ne s t = negb (sel_eq s t).
Proof. unfold sel_ne, sel_eq. rewrite op_ne_negb. now rewrite !negb_andb. Qed.
Lemma pattern_ne_negb p q : pattern_ne p q = negb (pattern_eq p q).
Proof.
  unfold pattern_ne, pattern_eq. destruct (length p =? length q)%nat; [|reflexivity]. cbn [negb].
  revert q. induction p as [|x p IH]; intro q; [reflexivity|]. destruct q as [|y q]; [reflexivity|].
  cbn [pattern_ne_loop pattern_eq_loop]. destruct (sel_ne x y); [reflexivity|apply IH].
Qed.
Theorem C04_not_equal : forall s t, sel_ne s t = true <-> ~ sel_eq s t = true.
Proof. intros s t. rewrite sel_ne_negb. destruct (sel_eq s t); cbn; split; congruence. Qed.
Print Assumptions C04_not_equal.
(** Two patterns are equal when they have the same number of selectors, pairwise equal; otherwise they differ. *)
Theorem C07_equal_or_not : forall p q,
  (pattern_eq p q = true <-> Forall2 (fun s t => sel_eq s t = true) p q) /\
  (pattern_ne p q = true <-> ~ Forall2 (fun s t => sel_eq s t = true) p q).
Proof.
  intros p q. assert (H : pattern_eq p q = true <-> Forall2 (fun s t => sel_eq s t = true) p q).
  { unfold pattern_eq. destruct (Nat.eqb_spec (length p) (length q)) as [L|L]; cbn [negb].
    - revert q L. induction p as [|x p IH]; intros [|y q] L; try discriminate; [split; [constructor|reflexivity]|].
      cbn [pattern_eq_loop]. rewrite sel_ne_negb. injection L as L. destruct (sel_eq x y) eqn:E; cbn [negb].
      + rewrite (IH q L). split; [now constructor|intro F; inversion F; subst; assumption].
      + split; [discriminate|intro F; inversion F; subst; congruence].
    - split; [discriminate|]. intro F. exfalso. apply L. clear L. induction F; cbn; auto. }
  split; [exact H|]. rewrite pattern_ne_negb, <- H. destruct (pattern_eq p q); cbn; split; congruence.
Qed.
Print Assumptions C07_equal_or_not.
Theorem C09_subgroup_equal_or_not : forall g k,
  (subgroup_eq g k = true <-> pattern_eq (g_desc g) (g_desc k) = true /\ sel_eq (g_target g) (g_target k) = true) /\
  (subgroup_ne g k = true <-> ~ (pattern_eq (g_desc g) (g_desc k) = true /\ sel_eq (g_target g) (g_target k) = true)).
Proof.
  intros g k. unfold subgroup_eq, subgroup_ne. rewrite pattern_ne_negb, sel_ne_negb.
  destruct (pattern_eq (g_desc g) (g_desc k)), (sel_eq (g_target g) (g_target k)); cbn; intuition congruence.
Qed.
Print Assumptions C09_subgroup_equal_or_not.
Example C09_equal_nonvacuous :
  let g := SG [Sel "a" EQUAL (VInt 1)] (Sel "y" EQUAL (VStr "p")) in
  let k := SG [Sel "a" EQUAL (VInt 1)] (Sel "y" EQUAL (VStr "n")) in
  subgroup_eq g g = true /\ subgroup_ne g k = true /\ subgroup_ne g g = false.
Proof. repeat split. Qed.

(** * Selector.match *)
Theorem C10_match_scalar : forall s a v,
  (a <> s_attr s -> sel_match s a v = Ok false) /\
  (sel_match s a v = Ok true <-> a = s_attr s /\ op_evaluate (s_op s) v (s_val s) = Ok true) /\
  (forall e, sel_match s a v = Err e <-> a = s_attr s /\ op_evaluate (s_op s) v (s_val s) = Err e).
Proof.
  intros s a v. unfold sel_match. destruct (String.eqb_spec a (s_attr s)) as [->|N].
  - split; [congruence|]. split; [tauto|intro e; tauto].
  - split; [reflexivity|]. split; [|intro e]; split; try discriminate; intros (E & _); contradiction.
Qed.
Print Assumptions C10_match_scalar.
(** In words: when the value and the selector's value can be compared, [match] says whether the relation holds. *)
Theorem C10_match_relation : forall s v, comparable v (s_val s) \/ ~ is_order (s_op s) ->
  exists b, sel_match s (s_attr s) v = Ok b /\ (b = true <-> holds (s_op s) v (s_val s)).
Proof.
  intros s v H. unfold sel_match. rewrite String.eqb_refl. exact (evaluate_holds (s_op s) v (s_val s) H).
Qed.
Print Assumptions C10_match_relation.
(** A row is contained in a pattern iff each selector matches the row's cell of its attribute. *)
Theorem C10_contained_is_match : forall p df m, wf_df df -> is_contained p df = Ok m ->
  forall i, i < df_n df ->
    (nth i m false = true <->
     forall s, In s p -> exists v, cell df i (s_attr s) = Some v /\ sel_match s (s_attr s) v = Ok true).
Proof.
  intros p df m W H i Hi. rewrite (proj2 (is_contained_spec p df m W H) i Hi). unfold sel_match.
  split; intros K s Hs; destruct (K s Hs) as (v & C & E); exists v; rewrite String.eqb_refl in *; auto.
Qed.
Print Assumptions C10_contained_is_match.
(** On a Series: the plain [False] when the names differ, otherwise one answer per element. *)
Theorem C10_match_series : forall s a col,
  (a <> s_attr s -> sel_match_series s a col = Ok (inl false)) /\
  (a = s_attr s -> forall m, sel_match_series s a col = Ok (inr m) <->
     Forall2 (fun v b => sel_match s a v = Ok b) col m) /\
  (forall e, sel_match_series s a col = Err e -> a = s_attr s /\ exists v, In v col /\ sel_match s a v = Err e).
Proof.
  intros s a col. unfold sel_match_series, sel_match. destruct (String.eqb_spec a (s_attr s)) as [->|N].
  - split; [congruence|]. unfold op_evaluate_series. split.
    + intros _ m. split.
      * destruct (map_res _ col) as [m'|] eqn:E; cbn [bind]; [|discriminate]. intros [= <-]. now apply map_res_ok in E.
      * intro F. assert (E : map_res (fun x => op_evaluate (s_op s) x (s_val s)) col = Ok m); [|rewrite E; reflexivity].
        clear -F. induction F as [|x b l m Hx F IH]; [reflexivity|]. cbn [map_res]. rewrite Hx. cbn [bind]. rewrite IH. reflexivity.
    + intros e. destruct (map_res _ col) as [m'|e'] eqn:E; cbn [bind]; [discriminate|]. intros [= <-]. split; [reflexivity|].
      clear -E. revert E. induction col as [|x l IH]; [discriminate|]. cbn [map_res].
      destruct (op_evaluate (s_op s) x (s_val s)) as [b|e0] eqn:X; cbn [bind].
      * destruct (map_res _ l) as [r|e1]; cbn [bind]; [discriminate|]. intros [= <-]. destruct (IH eq_refl) as (v & Iv & Ev).
        exists v. split; [now right|exact Ev].
      * intros [= <-]. exists x. split; [now left|exact X].
  - split; [reflexivity|]. split; [contradiction|discriminate].
Qed.
Print Assumptions C10_match_series.
Example C10_match_nonvacuous :
  let s := Sel "age" LESS (VInt 30) in
  sel_match s "age" (VInt 20) = Ok true /\ sel_match s "ages" (VInt 20) = Ok false /\
  sel_match s "age" (VStr "20") = Err TypeError /\ sel_match s "ages" (VStr "20") = Ok false /\
  sel_match_series s "age" [VInt 20; VInt 40] = Ok (inr [true; false]) /\
  sel_match_series s "ages" [VInt 20; VInt 40] = Ok (inl false).
Proof. repeat split. Qed.
