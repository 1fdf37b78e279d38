(** Theorems for C53: the nodes of FP-trees with all their operations (hash-based children, setters). *)
From Verif Require Import NodeModel FPTreeProofs CoreOrder.
From Coq Require Import Lia.
Open Scope string_scope.
Open Scope list_scope.
Open Scope nat_scope.

(** * Specification: what a program did *)
Section Spec.
Variable hs : string -> Z.
Notation hist := (f_history hs).
(** In the program [ops] node [c], whose selector was [k] at that time, was added to the node [i] (no child had this key then) and no later
    deletion from [i] had that key. *)
Definition holds (ops : list fop) (i c : nat) (k : selector) : Prop := exists a b, ops = a ++ FAdd i c :: b /\
  i < length (hist a) /\ f_selector (hist a) c = Some k /\ f_get hs (hist a) i k = None /\ forall b1 s b2, b = b1 ++ FDel i s :: b2 -> same_key hs k s = false.
(** The operation gives the node [c] the parent [p]. *)
Definition gives_parent (h : fheap) (op : fop) (c : nat) (p : option nat) : Prop :=
  (exists i k, op = FAdd i c /\ i < length h /\ f_selector h c = Some k /\ f_get hs h i k = None /\ p = Some i) \/
  (exists i s, op = FDel i s /\ f_get hs h i s = Some c /\ p = None) \/
  (op = FSetParent c p).
(** The last operation of the program that gave the node a parent gave it [p] (None if there was none). *)
Definition last_parent (ops : list fop) (c : nat) (p : option nat) : Prop :=
  (exists a op b, ops = a ++ op :: b /\ c < length (hist a) /\ gives_parent (hist a) op c p /\ forall b1 op' b2 p', b = b1 ++ op' :: b2 -> ~ gives_parent (hist (a ++ op :: b1)) op' c p') \/
  (p = None /\ forall a op b p', ops = a ++ op :: b -> c < length (hist a) -> ~ gives_parent (hist a) op c p').

(** * Proofs *)
Lemma key_sym : forall k s, same_key hs k s = same_key hs s k.
Proof. intros k s. unfold same_key. rewrite Z.eqb_sym, sel_eq_sym. reflexivity. Qed.
Lemma key_refl : forall k, same_key hs k k = true.
Proof. intros k. unfold same_key. rewrite Z.eqb_refl, sel_eq_refl. reflexivity. Qed.
Lemma key_trans : forall a b c, same_key hs a b = true -> same_key hs b c = true -> same_key hs a c = true.
Proof. intros a b c. unfold same_key. rewrite !andb_true_iff, !Z.eqb_eq. intros [A1 A2] [B1 B2]. split; [congruence|eapply sel_eq_trans; eauto]. Qed.
Lemma key_left : forall a b c, same_key hs a b = true -> same_key hs a c = same_key hs b c.
Proof.
  intros a b c H. destruct (same_key hs b c) eqn:E; [eapply key_trans; eauto|]. destruct (same_key hs a c) eqn:E2; auto. rewrite <- E. symmetry. eapply key_trans; [rewrite key_sym; exact H|auto].
Qed.
Definition keys_apart (l : list (selector * nat)) : Prop := ForallOrdPairs (fun x y => same_key hs (fst x) (fst y) = false) l.
Lemma get_none : forall s l, d_get hs s l = None <-> forall k c, In (k, c) l -> same_key hs k s = false.
Proof.
  intros s l. induction l as [|[k c] l IH]; cbn [d_get]; [split; [intros _ k c []|auto]|]. destruct (same_key hs k s) eqn:E.
  - split; [discriminate|]. intros H. specialize (H k c (or_introl eq_refl)). congruence.
  - rewrite IH. split; [intros H k' c' [I|I]; [injection I as <- <-; auto|eauto]|intros H k' c' I; eapply H; right; eauto].
Qed.
Lemma get_some : forall s l c, keys_apart l -> (d_get hs s l = Some c <-> exists k, In (k, c) l /\ same_key hs k s = true).
Proof.
  intros s l c A. induction A as [|[k v] l F A IH]; cbn [d_get]; [split; [discriminate|intros (k & [] & _)]|]. destruct (same_key hs k s) eqn:E.
  - split; [intros H; injection H as ->; exists k; split; [left; auto|auto]|]. intros (k' & [I|I] & E'); [injection I as _ ->; auto|]. rewrite Forall_forall in F. specialize (F _ I). cbn [fst] in F.
    rewrite (key_left k s k') in F by auto. rewrite key_sym in F. congruence.
  - rewrite IH. split; [intros (k' & I & E'); exists k'; split; [right; auto|auto]|]. intros (k' & [I|I] & E'); [injection I as -> ->; congruence|eauto].
Qed.
Lemma remove_in : forall s l x, keys_apart l -> (In x (d_remove hs s l) <-> In x l /\ same_key hs (fst x) s = false).
Proof.
  intros s l x A. induction A as [|[k v] l F A IH]; cbn [d_remove]; [split; [intros []|intros [[] _]]|]. destruct (same_key hs k s) eqn:E.
  - split; [intros I|intros [[<-|I] N]; [cbn [fst] in N; congruence|auto]]. split; [right; auto|]. rewrite Forall_forall in F. specialize (F _ I). cbn [fst] in F. rewrite (key_left k s (fst x)) in F by auto. rewrite key_sym. exact F.
  - cbn [In]. rewrite IH. split; [intros [<-|[I N]]; [split; [left; auto|auto]|split; [right; auto|auto]]|intros [[<-|I] N]; auto].
Qed.
Lemma remove_apart : forall s l, keys_apart l -> keys_apart (d_remove hs s l).
Proof.
  intros s l A. induction A as [|[k v] l F A IH]; cbn [d_remove]; [constructor|]. destruct (same_key hs k s); auto. constructor; auto. rewrite Forall_forall in *. intros x I. apply F. apply (remove_in s l x A) in I. apply I.
Qed.
Lemma snoc_apart : forall l x, keys_apart l -> (forall y, In y l -> same_key hs (fst y) (fst x) = false) -> keys_apart (l ++ [x]).
Proof.
  intros l x A H. induction A as [|y l F A IH]; cbn [app]; [constructor; [constructor|constructor]|]. constructor; [|apply IH; intros z I; apply H; right; auto].
  rewrite Forall_forall in *. intros z I. apply in_app_or in I. destruct I as [I|[<-|[]]]; [auto|apply H; left; auto].
Qed.
Definition childs_of (h : fheap) (i : nat) : list (selector * nat) := match nth_error h i with Some n => fn_childs n | None => [] end.
Lemma f_get_childs : forall h i s, f_get hs h i s = d_get hs s (childs_of h i).
Proof. intros h i s. unfold f_get, childs_of. destruct (nth_error h i); reflexivity. Qed.
Definition node_ok (h : fheap) : Prop := forall i, keys_apart (childs_of h i) /\ forall k c, In (k, c) (childs_of h i) -> c < length h.
Lemma childs_upd : forall h i f j, (forall n, fn_childs (f n) = fn_childs n) -> childs_of (upd i f h) j = childs_of h j.
Proof. intros h i f j H. unfold childs_of. rewrite nth_error_upd. destruct (Nat.eqb j i); auto. destruct (nth_error h j); cbn [option_map]; auto. Qed.
Lemma childs_set : forall h i g j, childs_of (upd i (fun x => f_childs (g (fn_childs x)) x) h) j = if Nat.eqb j i && (j <? length h) then g (childs_of h j) else childs_of h j.
Proof.
  intros h i g j. unfold childs_of. rewrite nth_error_upd. destruct (Nat.eqb j i); auto. destruct (nth_error h j) as [n|] eqn:E; cbn [option_map f_childs fn_childs andb].
  - assert (L : j < length h) by (apply nth_error_Some; congruence). apply Nat.ltb_lt in L. rewrite L. reflexivity.
  - apply nth_error_None in E. apply Nat.ltb_ge in E. rewrite E. reflexivity.
Qed.
Lemma sel_of : forall h c k, f_selector h c = Some k -> exists n, nth_error h c = Some n /\ fn_sel n = k.
Proof. intros h c k H. unfold f_selector in H. destruct (nth_error h c) as [n|]; [|discriminate]. injection H as <-. eauto. Qed.
(** A successful addition. *)
Definition adds (h : fheap) (i c : nat) (k : selector) : Prop := i < length h /\ f_selector h c = Some k /\ f_get hs h i k = None.
Lemma add_cases : forall h i c, (exists k, adds h i c k /\ f_step hs h (FAdd i c) = upd i (fun x => f_childs (fn_childs x ++ [(k, c)]) x) (upd c (f_parent (Some i)) h)) \/
  ((forall k, ~ adds h i c k) /\ f_step hs h (FAdd i c) = h).
Proof.
  intros h i c. cbn [f_step]. unfold f_add, adds. destruct (nth_error h i) as [n|] eqn:Ei.
  - assert (L : i < length h) by (apply nth_error_Some; congruence). destruct (nth_error h c) as [m|] eqn:Ec.
    + destruct (d_get hs (fn_sel m) (fn_childs n)) eqn:G.
      * right. split; auto. intros k (_ & S1 & S2). apply sel_of in S1. destruct S1 as (m' & E & <-). rewrite Ec in E. injection E as <-. unfold f_get in S2. rewrite Ei in S2. congruence.
      * left. exists (fn_sel m). split; auto. split; auto. split; [unfold f_selector; rewrite Ec; auto|unfold f_get; rewrite Ei; auto].
    + right. split; auto. intros k (_ & S1 & _). unfold f_selector in S1. rewrite Ec in S1. discriminate.
  - right. split; [|destruct (nth_error h c); auto]. intros k (L & _). apply nth_error_None in Ei. lia.
Qed.
Lemma del_cases : forall h i s, (exists c, f_get hs h i s = Some c /\ f_step hs h (FDel i s) = upd i (fun x => f_childs (d_remove hs s (fn_childs x)) x) (upd c (f_parent None) h)) \/
  (f_get hs h i s = None /\ f_step hs h (FDel i s) = h).
Proof.
  intros h i s. cbn [f_step]. unfold f_del, f_get. destruct (nth_error h i) as [n|]; [|right; auto]. destruct (d_get hs s (fn_childs n)) as [c|]; [left; exists c|right]; auto.
Qed.
(** What one operation does to the children. *)
Lemma step_childs : forall h op i k c, node_ok h ->
  (In (k, c) (childs_of (f_step hs h op) i) <->
   match op with
   | FAdd i' c' => In (k, c) (childs_of h i) \/ (i' = i /\ c' = c /\ adds h i c k)
   | FDel i' s => In (k, c) (childs_of h i) /\ (i' = i -> same_key hs k s = false)
   | _ => In (k, c) (childs_of h i)
   end).
Proof.
  intros h op i k c OK. destruct op as [s cs l|i' c'|i' s|i' s|i' cs|i' l|i' p]; try (cbn [f_step]; rewrite childs_upd by reflexivity; reflexivity).
  - cbn [f_step]. unfold childs_of. destruct (Nat.lt_ge_cases i (length h)) as [L|L]; [rewrite nth_error_app1 by auto; reflexivity|]. rewrite nth_error_app2 by auto. assert (E : nth_error h i = None) by (apply nth_error_None; auto). rewrite E.
    destruct (i - length h) as [|[|?]]; reflexivity.
  - destruct (add_cases h i' c') as [(k' & A & E)|(N & E)]; rewrite E.
    + rewrite (childs_set _ i' (fun x => x ++ [(k', c')])), length_upd, childs_upd by reflexivity. destruct (Nat.eqb i i') eqn:Ei; cbn [andb].
      * apply Nat.eqb_eq in Ei. subst i'. destruct A as (L & A). assert (L2 := L). apply Nat.ltb_lt in L2. rewrite L2. rewrite in_app_iff. cbn [In]. split.
        -- intros [I|[I|[]]]; [auto|]. injection I as -> ->. right. split; auto. split; auto. split; auto.
        -- intros [I|(_ & -> & (_ & S1 & _))]; [auto|]. destruct A as [S2 _]. rewrite S1 in S2. injection S2 as ->. auto.
      * apply Nat.eqb_neq in Ei. split; [auto|intros [I|(-> & _)]; [auto|congruence]].
    + split; [auto|intros [I|(-> & -> & A)]; [auto|destruct (N k A)]].
  - destruct (del_cases h i' s) as [(c' & G & E)|(G & E)]; rewrite E.
    + rewrite (childs_set _ i' (d_remove hs s)), length_upd, childs_upd by reflexivity. destruct (Nat.eqb i i') eqn:Ei; cbn [andb].
      * apply Nat.eqb_eq in Ei. subst i'. assert (L : i < length h) by (unfold f_get in G; destruct (nth_error h i) eqn:X; [apply nth_error_Some; congruence|discriminate]). apply Nat.ltb_lt in L. rewrite L.
        rewrite remove_in by apply OK. cbn [fst]. split; [intros [A B]; auto|intros [A B]; auto].
      * apply Nat.eqb_neq in Ei. split; [intros I; split; [auto|intros ->; congruence]|intros [I _]; auto].
    + split; [|tauto]. intros I. split; auto. intros ->. rewrite f_get_childs, get_none in G. eapply G; eauto.
Qed.
Lemma step_length : forall h op, length h <= length (f_step hs h op).
Proof.
  intros h op. destruct op as [s cs l|i' c'|i' s|i' s|i' cs|i' l|i' p]; try (cbn [f_step]; rewrite length_upd; auto).
  - cbn [f_step]. rewrite app_length. lia.
  - destruct (add_cases h i' c') as [(k' & A & E)|(N & E)]; rewrite E; rewrite ?length_upd; auto.
  - destruct (del_cases h i' s) as [(c' & G & E)|(G & E)]; rewrite E; rewrite ?length_upd; auto.
Qed.
Lemma step_ok : forall h op, node_ok h -> node_ok (f_step hs h op).
Proof.
  intros h op OK i. split.
  - destruct op as [s cs l|i' c'|i' s|i' s|i' cs|i' l|i' p]; try (cbn [f_step]; rewrite childs_upd by reflexivity; apply OK).
    + cbn [f_step]. pose proof (OK i) as [K _]. unfold childs_of in *. destruct (Nat.lt_ge_cases i (length h)) as [L|L]; [rewrite nth_error_app1 by auto; auto|]. rewrite nth_error_app2 by auto. destruct (i - length h) as [|[|?]]; constructor.
    + destruct (add_cases h i' c') as [(k' & A & E)|(N & E)]; rewrite E; [|apply OK]. rewrite (childs_set _ i' (fun x => x ++ [(k', c')])), length_upd, childs_upd by reflexivity.
      destruct (Nat.eqb i i') eqn:Ei; cbn [andb]; [|apply OK]. apply Nat.eqb_eq in Ei. subst i'. destruct (i <? length h); [|apply OK]. apply snoc_apart; [apply OK|]. intros [k c] I. cbn [fst]. destruct A as (_ & _ & G). rewrite f_get_childs, get_none in G. eapply G; eauto.
    + destruct (del_cases h i' s) as [(c' & G & E)|(G & E)]; rewrite E; [|apply OK]. rewrite (childs_set _ i' (d_remove hs s)), length_upd, childs_upd by reflexivity.
      destruct (Nat.eqb i i' && _); [apply remove_apart|]; apply OK.
  - intros k c I. apply step_childs in I; auto. enough (c < length h) by (pose proof (step_length h op); lia). destruct (OK i) as [_ B].
    destruct op; try (eapply B; exact I); [|eapply B; exact (proj1 I)]. destruct I as [I|(_ & _ & (_ & S1 & _))]; [eapply B; eauto|]. apply sel_of in S1. destruct S1 as (n & E & _). apply nth_error_Some. congruence.
Qed.
Lemma hist_snoc : forall ops op, hist (ops ++ [op]) = f_step hs (hist ops) op.
Proof. intros ops op. unfold f_history. rewrite fold_left_app. reflexivity. Qed.
Lemma hist_ok : forall ops, node_ok (hist ops).
Proof.
  induction ops as [|op ops IH] using rev_ind; [intros i; unfold childs_of, f_history; cbn [fold_left]; destruct i; cbn; (split; [constructor|intros k c []])|]. rewrite hist_snoc. apply step_ok; auto.
Qed.
Lemma split_snoc : forall {A} (a b l : list A) x y, a ++ x :: b = l ++ [y] -> (b = [] /\ a = l /\ x = y) \/ exists b', b = b' ++ [y] /\ l = a ++ x :: b'.
Proof.
  intros A a b l x y H. destruct b as [|z b] using rev_ind.
  - left. apply app_inj_tail in H. destruct H as [-> ->]. auto.
  - right. exists b. rewrite app_comm_cons, app_assoc in H. apply app_inj_tail in H. destruct H as [<- <-]. auto.
Qed.
Lemma in_holds : forall ops i c k, In (k, c) (childs_of (hist ops) i) <-> holds ops i c k.
Proof.
  induction ops as [|op ops IH] using rev_ind; intros i c k.
  - split; [unfold childs_of, f_history; cbn [fold_left]; destruct i; intros []|]. intros (a & b & E & _). destruct a; discriminate.
  - rewrite hist_snoc, step_childs by apply hist_ok. split.
    + intros H. assert (X : (holds ops i c k /\ (forall s, op = FDel i s -> same_key hs k s = false)) \/ (op = FAdd i c /\ adds (hist ops) i c k)).
      { destruct op as [s cs l|i' c'|i' s|i' s|i' cs|i' l|i' p]; try (left; split; [apply IH; exact H|intros; discriminate]).
        - destruct H as [I|(-> & -> & A)]; [left; split; [apply IH; auto|intros; discriminate]|right; auto].
        - left. destruct H as [I N]. split; [apply IH; auto|]. intros s0 E. injection E as -> ->. auto. }
      destruct X as [[(a & b & -> & L & S1 & S2 & D) N]|[-> (L & S1 & S2)]].
      * exists a, (b ++ [op]). split; [rewrite <- app_assoc; reflexivity|]. repeat (split; auto). intros b1 s b2 E. symmetry in E. apply split_snoc in E. destruct E as [(_ & _ & E)|(b' & _ & E)]; [apply N; auto|eapply D; eauto].
      * exists ops, []. split; auto. repeat (split; auto). intros b1 s b2 E. destruct b1; discriminate.
    + intros (a & b & E & L & S1 & S2 & D). symmetry in E. apply split_snoc in E. destruct E as [(-> & -> & <-)|(b' & -> & ->)].
      * right. repeat (split; auto).
      * assert (K : holds (a ++ FAdd i c :: b') i c k) by (exists a, b'; repeat (split; auto); intros b1 s b2 E; apply (D b1 s (b2 ++ [op])); rewrite E, <- app_assoc; reflexivity). apply IH in K.
        destruct op as [s cs l|i' c'|i' s|i' s|i' cs|i' l|i' p]; auto. split; auto. intros ->. apply (D b' s []). reflexivity.
Qed.
(** What one operation does to the parent of a node. *)
Lemma step_parent : forall h op c, c < length h ->
  (exists p, gives_parent h op c p /\ f_parent_of (f_step hs h op) c = p) \/ ((forall p, ~ gives_parent h op c p) /\ f_parent_of (f_step hs h op) c = f_parent_of h c).
Proof.
  intros h op c L. destruct (nth_error h c) as [n|] eqn:En; [|apply nth_error_None in En; lia].
  assert (U : forall i f, (forall n, fn_parent (f n) = fn_parent n) -> forall h, f_parent_of (upd i f h) c = f_parent_of h c).
  { intros i f Hf h0. unfold f_parent_of. rewrite nth_error_upd. destruct (Nat.eqb c i); auto. destruct (nth_error h0 c); cbn [option_map]; auto. }
  assert (P : forall i p, f_parent_of (upd i (f_parent p) h) c = if Nat.eqb c i then p else f_parent_of h c).
  { intros i p. unfold f_parent_of. rewrite nth_error_upd. destruct (Nat.eqb c i); auto. rewrite En. reflexivity. }
  unfold gives_parent. destruct op as [s cs l|i' c'|i' s|i' s|i' cs|i' l|i' p];
    try (right; split; [intros p [(i & k & E & _)|[(i & k & E & _)|E]]; discriminate|cbn [f_step]; rewrite U by reflexivity; reflexivity]).
  - right. split; [intros p [(i & k & E & _)|[(i & k & E & _)|E]]; discriminate|]. cbn [f_step]. unfold f_parent_of. rewrite nth_error_app1 by auto. reflexivity.
  - destruct (add_cases h i' c') as [(k' & A & E)|(N & E)]; rewrite E.
    + rewrite U by reflexivity. rewrite P. destruct (Nat.eqb c c') eqn:Ec.
      * apply Nat.eqb_eq in Ec. subst c'. left. exists (Some i'). split; [left; exists i', k'; destruct A as (A1 & A2 & A3); auto|auto].
      * apply Nat.eqb_neq in Ec. right. split; auto. intros p [(i & k & X & _)|[(i & k & X & _)|X]]; try discriminate. injection X as _ X. congruence.
    + right. split; auto. intros p [(i & k & X & A1 & A2 & A3 & _)|[(i & k & X & _)|X]]; try discriminate. injection X as -> ->. apply (N k). split; auto.
  - destruct (del_cases h i' s) as [(c' & G & E)|(G & E)]; rewrite E.
    + rewrite U by reflexivity. rewrite P. destruct (Nat.eqb c c') eqn:Ec.
      * apply Nat.eqb_eq in Ec. subst c'. left. exists None. split; [right; left; exists i', s; auto|auto].
      * apply Nat.eqb_neq in Ec. right. split; auto. intros p [(i & k & X & _)|[(i & k & X & A & _)|X]]; try discriminate. injection X as -> ->. congruence.
    + right. split; auto. intros p [(i & k & X & _)|[(i & k & X & A & _)|X]]; try discriminate. injection X as -> ->. congruence.
  - cbn [f_step]. rewrite P. destruct (Nat.eqb c i') eqn:Ec.
    + apply Nat.eqb_eq in Ec. subst i'. left. exists p. auto.
    + apply Nat.eqb_neq in Ec. right. split; auto. intros p' [(i & k & X & _)|[(i & k & X & _)|X]]; try discriminate. injection X as -> _. congruence.
Qed.
Lemma gives_old : forall ops op c p, gives_parent (hist ops) op c p -> (exists i, op = FSetParent i p) \/ c < length (hist ops).
Proof.
  intros ops op c p [(i & k & -> & _ & S1 & _)|[(i & s & -> & G & _)| ->]]; [right|right|left; eauto].
  - apply sel_of in S1. destruct S1 as (n & E & _). apply nth_error_Some. congruence.
  - rewrite f_get_childs, get_some in G by apply hist_ok. destruct G as (k & I & _). destruct (hist_ok ops i) as [_ B]. eapply B; eauto.
Qed.
End Spec.

(** * C53 *)
(** The child found for a selector, after any program (constructions, additions, deletions, setters; failed ones included): the node
    added with that key and not deleted since. *)
Theorem C53_lookup_exact : forall hs ops i s c, f_get hs (f_history hs ops) i s = Some c <-> exists k, holds hs ops i c k /\ same_key hs k s = true.
Proof.
  intros hs ops i s c. rewrite f_get_childs, get_some by apply hist_ok. split; intros (k & H & E); exists k; (split; [apply in_holds; auto|auto]).
Qed.
(** At most one child per key, and as many children as there are nodes held. *)
Theorem C53_one_per_selector : forall hs ops i c c' k k', holds hs ops i c k -> holds hs ops i c' k' -> same_key hs k k' = true -> c = c' /\ k = k'.
Proof.
  intros hs ops i c c' k k' H H' E. apply in_holds in H. apply in_holds in H'. destruct (hist_ok hs ops i) as [A _].
  assert (X : forall l, keys_apart hs l -> In (k, c) l -> In (k', c') l -> c = c' /\ k = k').
  { clear - E. intros l A. induction A as [|x l F A IH]; intros I I'; [destruct I|]. rewrite Forall_forall in F. destruct I as [->|I], I' as [I'|I'].
    - injection I' as -> ->. auto.
    - specialize (F _ I'). cbn [fst] in F. congruence.
    - subst x. specialize (F _ I). cbn [fst] in F. rewrite key_sym in F. congruence.
    - auto. }
  eapply X; eauto.
Qed.
Theorem C53_number : forall hs ops i, exists l, NoDup l /\ length l = f_number (f_history hs ops) i /\ forall k c, In (k, c) l <-> holds hs ops i c k.
Proof.
  intros hs ops i. exists (childs_of (f_history hs ops) i). destruct (hist_ok hs ops i) as [A _]. split; [|split].
  - induction A as [|x l F A IH]; constructor; auto. intros I. rewrite Forall_forall in F. specialize (F _ I). rewrite key_refl in F. discriminate.
  - unfold f_number, childs_of. destruct (nth_error _ i); reflexivity.
  - intros k c. apply in_holds.
Qed.
(** The parent of a node: what the last operation that concerned it said. *)
Theorem C53_parent_exact : forall hs ops c, c < length (f_history hs ops) -> last_parent hs ops c (f_parent_of (f_history hs ops) c).
Proof.
  intros hs ops c. induction ops as [|op ops IH] using rev_ind; [cbn; lia|]. intros L.
  destruct (Nat.lt_ge_cases c (length (f_history hs ops))) as [Lo|Lo].
  - rewrite hist_snoc. destruct (step_parent hs (f_history hs ops) op c Lo) as [(p & G & E)|(N & E)]; rewrite E.
    + left. exists ops, op, []. split; auto. split; auto. split; auto. intros b1 op' b2 p' X. destruct b1; discriminate.
    + specialize (IH Lo). destruct IH as [(a & op1 & b & -> & L1 & G & D)|[P D]].
      * left. exists a, op1, (b ++ [op]). split; [rewrite <- app_assoc; reflexivity|]. split; auto. split; auto. intros b1 op' b2 p' X. symmetry in X. apply split_snoc in X.
        destruct X as [(-> & -> & ->)|(b' & -> & ->)]; [apply N|eapply D; reflexivity].
      * right. split; auto. intros a op' b p' X La. symmetry in X. apply split_snoc in X. destruct X as [(-> & -> & ->)|(b' & -> & ->)]; [apply N|eapply D; [reflexivity|auto]].
  - right. split.
    + unfold f_parent_of. rewrite hist_snoc. destruct op as [s cs l|i' c'|i' s|i' s|i' cs|i' l|i' p].
      1: { cbn [f_step]. rewrite nth_error_app2 by auto. destruct (c - _) as [|[|?]]; reflexivity. }
      all: exfalso; rewrite hist_snoc in L; revert L; clear - Lo.
      1: { destruct (add_cases hs (f_history hs ops) i' c') as [(k' & A & E)|(N & E)]; rewrite E; rewrite ?length_upd; lia. }
      1: { destruct (del_cases hs (f_history hs ops) i' s) as [(c' & G & E)|(G & E)]; rewrite E; rewrite ?length_upd; lia. }
      all: cbn [f_step]; rewrite length_upd; lia.
    + intros a op' b p' X La. exfalso. assert (K : length (f_history hs a) <= length (f_history hs ops)).
      { symmetry in X. apply split_snoc in X. destruct X as [(_ & -> & _)|(b' & _ & ->)]; [lia|]. clear. revert a. induction b' as [|x b IH] using rev_ind; intros a.
        - rewrite hist_snoc. apply step_length.
        - rewrite app_comm_cons, app_assoc, hist_snoc. specialize (IH a). pose proof (step_length hs (f_history hs (a ++ op' :: b)) x). lia. }
      lia.
Qed.
(** In particular: a node that was added to [i] and that nothing concerned since then is a child of [i], and [i] has it under its key. *)
Theorem C53_child_and_parent : forall hs a b i c k, i < length (f_history hs a) -> f_selector (f_history hs a) c = Some k -> f_get hs (f_history hs a) i k = None ->
  (forall b1 op b2 p, b = b1 ++ op :: b2 -> ~ gives_parent hs (f_history hs (a ++ FAdd i c :: b1)) op c p) ->
  f_is_child (f_history hs (a ++ FAdd i c :: b)) c (Some i) = true /\ f_get hs (f_history hs (a ++ FAdd i c :: b)) i k = Some c /\
  (f_selector (f_history hs (a ++ FAdd i c :: b)) c = Some k -> f_has hs (f_history hs (a ++ FAdd i c :: b)) i c = true).
Proof.
  intros hs a b i c k L S1 S2 D.
  assert (P : f_parent_of (f_history hs (a ++ FAdd i c :: b)) c = Some i /\ c < length (f_history hs (a ++ FAdd i c :: b))).
  { assert (Lc : c < length (f_history hs a)) by (apply sel_of in S1; destruct S1 as (n & E & _); apply nth_error_Some; congruence).
    revert D. induction b as [|op b IH] using rev_ind; intros D.
    - rewrite hist_snoc. pose proof (step_length hs (f_history hs a) (FAdd i c)) as LL. split; [|lia]. destruct (step_parent hs (f_history hs a) (FAdd i c) c Lc) as [(p & G & E)|(N & _)].
      + rewrite E. destruct G as [(i' & k' & X & _ & _ & _ & ->)|[(i' & s & X & _)|X]]; try discriminate. injection X as <-. auto.
      + destruct (N (Some i)). left. exists i, k. auto.
    - destruct IH as [I1 I2]; [intros b1 op' b2 p E; apply (D b1 op' (b2 ++ [op]) p); rewrite E, <- app_assoc; reflexivity|].
      rewrite app_comm_cons, app_assoc, hist_snoc. pose proof (step_length hs (f_history hs (a ++ FAdd i c :: b)) op) as LL. split; [|lia].
      destruct (step_parent hs (f_history hs (a ++ FAdd i c :: b)) op c I2) as [(p & G & E)|(N & E)]; [|congruence]. destruct (D b op [] p eq_refl G). }
  assert (H : holds hs (a ++ FAdd i c :: b) i c k).
  { exists a, b. split; auto. split; auto. split; auto. split; auto. intros b1 s b2 E. destruct (same_key hs k s) eqn:K; auto. exfalso. apply (D b1 (FDel i s) b2 None E). right. left. exists i, s. split; auto. split; auto.
    assert (H0 : holds hs (a ++ FAdd i c :: b1) i c k).
    { assert (D1 : forall c1 op c2 p, b1 = c1 ++ op :: c2 -> ~ gives_parent hs (f_history hs (a ++ FAdd i c :: c1)) op c p).
      { intros c1 op c2 p E1. apply (D c1 op (c2 ++ FDel i s :: b2) p). rewrite E, E1, <- app_assoc. reflexivity. }
      clear - L S1 S2 D1. revert D1. induction b1 as [|op b1 IH] using rev_ind; intros D1.
      - exists a, []. repeat (split; auto). intros b1 s b2 E. destruct b1; discriminate.
      - destruct IH as (a' & b' & E & X1 & X2 & X3 & X4); [intros c1 op' c2 p E; apply (D1 c1 op' (c2 ++ [op]) p); rewrite E, <- app_assoc; reflexivity|].
        exists a', (b' ++ [op]). split; [rewrite app_comm_cons, app_assoc, E, <- app_assoc; reflexivity|]. repeat (split; auto). intros c1 s c2 E2. symmetry in E2. apply split_snoc in E2.
        destruct E2 as [(_ & -> & <-)|(c' & _ & ->)]; [|eapply X4; reflexivity]. destruct (same_key hs k s) eqn:K; auto. exfalso. apply (D1 b1 (FDel i s) [] None eq_refl). right. left. exists i, s. split; auto. split; auto.
        apply C53_lookup_exact. exists k. split; auto. exists a', b'. auto. }
    apply C53_lookup_exact. exists k. auto. }
  assert (G : f_get hs (f_history hs (a ++ FAdd i c :: b)) i k = Some c) by (apply C53_lookup_exact; exists k; split; auto; apply key_refl).
  split; [unfold f_is_child; rewrite (proj1 P); apply Nat.eqb_refl|]. split; auto. intros E. apply sel_of in E. destruct E as (n & E & <-). unfold f_get in G. unfold f_has. rewrite E. destruct (nth_error _ i); [|discriminate]. rewrite G. apply Nat.eqb_refl.
Qed.
(** The errors of the operations. *)
Theorem C53_errors : forall hs h i c s, i < length h -> 
  (forall k, f_selector h c = Some k -> (f_add hs h i c = Err DuplicateFpTreeNodeError <-> f_get hs h i k <> None) /\ ((exists h', f_add hs h i c = Ok h') <-> f_get hs h i k = None)) /\
  (f_del hs h i s = Err KeyError <-> f_get hs h i s = None) /\ ((exists h', f_del hs h i s = Ok h') <-> f_get hs h i s <> None).
Proof.
  intros hs h i c s L. unfold f_add, f_del, f_get. destruct (nth_error h i) as [n|] eqn:E; [|apply nth_error_None in E; lia]. split.
  - intros k Hk. apply sel_of in Hk. destruct Hk as (m & Em & <-). rewrite Em. destruct (d_get hs (fn_sel m) (fn_childs n)); (split; split; try congruence; eauto). intros (h' & X). discriminate.
  - destruct (d_get hs s (fn_childs n)); (split; split; try congruence; eauto). intros (h' & X). discriminate.
Qed.
(** The trees (FPTreeModel.v) only hold selectors attribute = 'text', for which this is the same as comparing the keys with [==] only. *)
Definition as_fnode (n : node) : fnode := FNode (nd_sel n) [nd_tp n; nd_fp n] (nd_link n) (nd_childs n) (nd_parent n).
Definition texts_only (h : FPTreeModel.heap) : Prop := forall i n, nth_error h i = Some n -> nominal (nd_sel n) /\ forall k c, In (k, c) (nd_childs n) -> nominal k.
Lemma upd_map : forall (h : FPTreeModel.heap) i f g, (forall n, as_fnode (f n) = g (as_fnode n)) -> map as_fnode (upd i f h) = upd i g (map as_fnode h).
Proof. induction h as [|x h IH]; intros [|i] f g H; cbn [upd map]; auto; [rewrite H; auto|f_equal; auto]. Qed.
Lemma key_nominal : forall hs k s, nominal k -> nominal s -> same_key hs k s = sel_eq k s.
Proof.
  intros hs k s Hk Hs. unfold same_key. destruct (sel_eq k s) eqn:E; [|apply andb_false_r]. apply (sel_eq_nominal k s Hk Hs) in E. subst s. rewrite Z.eqb_refl. reflexivity.
Qed.
Lemma assoc_nominal : forall hs s (l : list (selector * nat)), nominal s -> (forall k c, In (k, c) l -> nominal k) -> d_get hs s l = sel_assoc s l /\ d_remove hs s l = sel_assoc_del s l.
Proof.
  intros hs s l Hs. induction l as [|[k v] l IH]; intros H; cbn [d_get d_remove sel_assoc sel_assoc_del]; auto. rewrite key_nominal by (auto; eapply H; left; eauto). destruct IH as [I1 I2]; [intros k' c' I; eapply H; right; eauto|].
  destruct (sel_eq k s); auto. rewrite I1, I2. auto.
Qed.
Theorem C53_trees : forall hs h i c s, texts_only h -> nominal s ->
  f_add hs (map as_fnode h) i c = match add_child h i c with Ok h' => Ok (map as_fnode h') | Err e => Err e end /\
  f_del hs (map as_fnode h) i s = match delete_child_by_selector h i s with Ok h' => Ok (map as_fnode h') | Err e => Err e end /\
  f_get hs (map as_fnode h) i s = get_child_by_selector h i s.
Proof.
  intros hs h i c s T Hs. unfold f_add, f_del, f_get, add_child, delete_child_by_selector, get_child_by_selector. rewrite !nth_error_map.
  destruct (nth_error h i) as [n|] eqn:Ei; cbn [option_map]; [|destruct (nth_error h c); auto]. destruct (T i n Ei) as [_ Tn]. cbn [as_fnode fn_childs]. destruct (assoc_nominal hs s (nd_childs n) Hs Tn) as [A1 A2]. split; [|split; auto].
  - destruct (nth_error h c) as [m|] eqn:Ec; cbn [option_map]; auto. destruct (T c m Ec) as [Tm _]. cbn [as_fnode fn_sel]. destruct (assoc_nominal hs (nd_sel m) (nd_childs n) Tm Tn) as [B1 _]. rewrite B1. destruct (sel_assoc (nd_sel m) (nd_childs n)); auto.
    f_equal. rewrite (upd_map _ i _ (fun x => f_childs (fn_childs x ++ [(nd_sel m, c)]) x)) by reflexivity. rewrite (upd_map _ c _ (f_parent (Some i))) by reflexivity. reflexivity.
  - rewrite A1. destruct (sel_assoc s (nd_childs n)) as [x|]; auto. f_equal.
    assert (G : forall (l : FPTreeModel.heap) (l' : fheap) j, l' = map as_fnode l -> (forall n', nth_error l j = Some n' -> nd_childs n' = nd_childs n) ->
      upd j (fun x => f_childs (d_remove hs s (fn_childs x)) x) l' = map as_fnode (upd j (fun x => set_childs (sel_assoc_del s (nd_childs x)) x) l)).
    { induction l as [|y l IH]; intros l' [|j] -> Hj; cbn [upd map]; auto.
      - f_equal. specialize (Hj y eq_refl). unfold f_childs, set_childs, as_fnode. cbn. rewrite Hj, A2. reflexivity.
      - f_equal. apply IH; auto. }
    apply G; [symmetry; apply (upd_map h x _ (f_parent None)); reflexivity|]. intros n' Hn'. rewrite nth_error_upd, Ei in Hn'. destruct (Nat.eqb i x); cbn [option_map] in Hn'; injection Hn' as <-; reflexivity.
Qed.
(** [==] alone does not make a key: a node can have two children with equal selectors (a = 1 and a = 1.0), whose texts have other hashes. *)
Theorem C53_equal_selectors_refuted : exists hs ops c c' s s', sel_eq s s' = true /\ c <> c' /\ f_get hs (f_history hs ops) 0 s = Some c /\ f_get hs (f_history hs ops) 0 s' = Some c' /\ f_number (f_history hs ops) 0 = 2.
Proof.
  exists (fun t => Z.of_nat (String.length t)), [FNew root_selector [] None; FNew (Sel "a" EQUAL (VInt 1)) [] None; FNew (Sel "a" EQUAL (VFloat 1 0)) [] None; FAdd 0 1; FAdd 0 2], 1, 2, (Sel "a" EQUAL (VInt 1)), (Sel "a" EQUAL (VFloat 1 0)).
  repeat split; try reflexivity. discriminate.
Qed.
(** is_child_of(p): the parent is p (p may be None); is_parent_of / has_child: the child under the current selector of the node is the node. *)
Theorem C53_is_child : forall h i p, f_is_child h i p = true <-> f_parent_of h i = p.
Proof.
  intros h i p. unfold f_is_child. destruct (f_parent_of h i) as [a|], p as [b|]; split; intros H; try discriminate; auto.
  - apply Nat.eqb_eq in H. congruence.
  - injection H as ->. apply Nat.eqb_refl.
Qed.
Theorem C53_has_child : forall hs h i j, f_has hs h i j = true <-> exists s, f_selector h j = Some s /\ f_get hs h i s = Some j.
Proof.
  intros hs h i j. unfold f_has, f_selector, f_get. destruct (nth_error h i) as [n|]; [|split; [discriminate|intros (s & _ & H); discriminate]].
  destruct (nth_error h j) as [c|]; cbn [option_map]; [|split; [discriminate|intros (s & H & _); discriminate]]. split.
  - destruct (d_get hs (fn_sel c) (fn_childs n)) as [k|] eqn:E; [|discriminate]. intros H. apply Nat.eqb_eq in H. subst k. exists (fn_sel c). auto.
  - intros (s & H & G). injection H as <-. rewrite G. apply Nat.eqb_refl.
Qed.
Print Assumptions C53_is_child.
Print Assumptions C53_has_child.
(** A node added to a second parent stays among the children of the first one, whose child it no longer is. *)
Theorem C53_shared_child_refuted : exists ops s, let h := f_history (fun _ => 0%Z) ops in f_get (fun _ => 0%Z) h 0 s = Some 2 /\ f_get (fun _ => 0%Z) h 1 s = Some 2 /\ f_is_child h 2 (Some 0) = false /\ f_is_child h 2 (Some 1) = true.
Proof. exists [FNew root_selector [] None; FNew root_selector [] None; FNew (Sel "a" EQUAL (VStr "x")) [] None; FAdd 0 2; FAdd 1 2], (Sel "a" EQUAL (VStr "x")). repeat split; reflexivity. Qed.
Definition some_ops : list fop := [FNew root_selector [] None; FNew (Sel "a" EQUAL (VStr "x")) [1%Z] None; FNew (Sel "a" EQUAL (VStr "y")) [] (Some 1); FAdd 0 1; FAdd 0 2; FDel 0 (Sel "a" EQUAL (VStr "x")); FSetSel 2 (Sel "b" EQUAL (VStr "x"))].
Example C53_exact_nonvacuous : let hs := fun t => Z.of_nat (String.length t) in f_get hs (f_history hs some_ops) 0 (Sel "a" EQUAL (VStr "y")) = Some 2 /\ f_get hs (f_history hs some_ops) 0 (Sel "a" EQUAL (VStr "x")) = None /\
  f_parent_of (f_history hs some_ops) 2 = Some 0 /\ f_parent_of (f_history hs some_ops) 1 = None /\ f_has hs (f_history hs some_ops) 0 2 = false.
Proof. repeat split; reflexivity. Qed.
Print Assumptions C53_lookup_exact. Print Assumptions C53_one_per_selector. Print Assumptions C53_number. Print Assumptions C53_parent_exact. Print Assumptions C53_child_and_parent.
Print Assumptions C53_errors. Print Assumptions C53_trees. Print Assumptions C53_equal_selectors_refuted. Print Assumptions C53_shared_child_refuted.
