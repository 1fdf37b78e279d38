(** The heap of an FP-tree represents an abstract trie: a list of (path, counters), one entry
    per node in order of creation. *)
From Verif Require Export FPTreeModel.
From Verif Require Import OrderFacts.
Open Scope list_scope.
Open Scope nat_scope.

Lemma value_eq_dec : forall v w : value, {v = w} + {v <> w}.
Proof. decide equality; auto using string_dec, Z.eq_dec, Nat.eq_dec. Defined.
Lemma operator_eq_dec : forall v w : operator, {v = w} + {v <> w}.
Proof. decide equality. Defined.
Lemma selector_eq_dec : forall v w : selector, {v = w} + {v <> w}.
Proof. decide equality; auto using string_dec, value_eq_dec, operator_eq_dec. Defined.
Definition path_eq_dec := list_eq_dec selector_eq_dec.

(** attribute = 'text' selectors: the only ones in a tree *)
Definition nominal (s : selector) : Prop := s_op s = EQUAL /\ is_str (s_val s) = true.
Lemma sel_eq_nominal : forall s t, nominal s -> nominal t -> (sel_eq s t = true <-> s = t).
Proof.
  intros [a o v] [a' o' v'] [H1 H2] [H3 H4]; cbn in *; subst.
  destruct v as [x| |]; try discriminate; destruct v' as [x'| |]; try discriminate.
  unfold sel_eq; cbn [s_attr s_op s_val]. cbn [op_eq op_value py_eq].
  rewrite !andb_true_iff, !String.eqb_eq. unfold op_eq. split.
  - intros [[-> _] ->]; reflexivity.
  - intros E; inversion E; subst. repeat split; reflexivity.
Qed.
Lemma sel_eq_nominalb : forall s t, nominal s -> nominal t ->
  sel_eq s t = if selector_eq_dec s t then true else false.
Proof.
  intros s t Hs Ht. destruct (selector_eq_dec s t) as [->|N].
  - apply sel_eq_nominal; auto.
  - destruct (sel_eq s t) eqn:E; auto. apply sel_eq_nominal in E; auto. contradiction.
Qed.

(** * Updates of lists *)
Lemma nth_error_upd : forall A (f : A -> A) l i j,
  nth_error (upd i f l) j = if Nat.eqb j i then option_map f (nth_error l j) else nth_error l j.
Proof.
  induction l as [|x l IH]; intros i j.
  - destruct i; cbn [upd]; destruct j; cbn [nth_error]; destruct (Nat.eqb _ _); reflexivity.
  - destruct i, j; cbn [upd nth_error Nat.eqb]; auto. 
Qed.
Lemma length_upd : forall A (f : A -> A) l i, length (upd i f l) = length l.
Proof. induction l; destruct i; cbn; auto. Qed.

(** * Paths *)
Notation path := (list selector).
Definition lastsel (p : path) : selector := last p root_selector.
Lemma lastsel_app : forall p s, lastsel (p ++ [s]) = s.
Proof. intros; unfold lastsel. apply last_last. Qed.
Lemma path_split : forall p : path, p <> [] -> p = removelast p ++ [lastsel p].
Proof. intros; apply app_removelast_last; auto. Qed.

Fixpoint pidx_from (k : nat) (ps : list path) (p : path) : option nat :=
  match ps with
  | [] => None
  | q :: r => if path_eq_dec q p then Some k else pidx_from (S k) r p
  end.
Definition pid (ps : list path) (p : path) : option nat :=
  match p with [] => Some 0 | _ => pidx_from 1 ps p end.
Fixpoint childs_from (k : nat) (ps : list path) (p : path) : list (selector * nat) :=
  match ps with
  | [] => []
  | q :: r => if path_eq_dec (removelast q) p then (lastsel q, k) :: childs_from (S k) r p
              else childs_from (S k) r p
  end.
Fixpoint ids_from (k : nat) (ps : list path) (s : selector) : list nat :=
  match ps with
  | [] => []
  | q :: r => if selector_eq_dec (lastsel q) s then k :: ids_from (S k) r s else ids_from (S k) r s
  end.
Definition ids (ps : list path) (s : selector) : list nat := ids_from 1 ps s.
Definition link (ps : list path) (s : selector) (id : nat) : option nat :=
  find (fun j => id <? j) (ids ps s).
Definition key_add (ks : list selector) (s : selector) : list selector :=
  if in_dec selector_eq_dec s ks then ks else ks ++ [s].
Definition keys (ps : list path) : list selector := fold_left key_add (map lastsel ps) [].

Definition valid (ps : list path) : Prop :=
  NoDup ps /\ ~ In [] ps /\ (forall p s, In (p ++ [s]) ps -> p = [] \/ In p ps) /\
  Forall (Forall nominal) ps.

Lemma pidx_from_in : forall ps k p, In p ps -> exists i, pidx_from k ps p = Some (k + i) /\ nth_error ps i = Some p.
Proof.
  induction ps as [|q r IH]; intros k p H; [destruct H|].
  cbn [pidx_from]. destruct (path_eq_dec q p) as [->|N].
  - exists 0. rewrite Nat.add_0_r; auto.
  - destruct H as [H|H]; [contradiction|]. destruct (IH (S k) p H) as (i & E & E2).
    exists (S i). rewrite E. split; auto. f_equal; lia.
Qed.
Lemma pidx_from_some : forall ps k p c, pidx_from k ps p = Some c -> exists i, c = k + i /\ nth_error ps i = Some p.
Proof.
  induction ps as [|q r IH]; intros k p c H; [discriminate|].
  cbn [pidx_from] in H. destruct (path_eq_dec q p) as [->|N].
  - injection H as <-. exists 0; split; auto.
  - destruct (IH _ _ _ H) as (i & -> & E). exists (S i); split; auto; lia.
Qed.
Lemma pidx_from_none : forall ps k p, pidx_from k ps p = None <-> ~ In p ps.
Proof.
  split.
  - intros H I. destruct (pidx_from_in ps k p I) as (i & E & _). congruence.
  - intros H. destruct (pidx_from k ps p) eqn:E; auto.
    destruct (pidx_from_some _ _ _ _ E) as (i & _ & E2). apply nth_error_In in E2. contradiction.
Qed.
Lemma pid_node : forall ps p i, NoDup ps -> p <> [] -> nth_error ps i = Some p -> pid ps p = Some (S i).
Proof.
  intros ps p i ND NE H. unfold pid. destruct p as [|s p]; [contradiction|].
  destruct (pidx_from_in ps 1 (s :: p) (nth_error_In _ _ H)) as (j & E & E2).
  rewrite E. replace j with i; [reflexivity|]. apply (proj1 (NoDup_nth_error ps) ND i j).
  - apply nth_error_Some. congruence.
  - congruence.
Qed.
Lemma pid_inj : forall ps p q c, pid ps p = Some c -> pid ps q = Some c -> p = q.
Proof.
  intros ps p q c Hp Hq. unfold pid in *. destruct p, q; auto.
  - apply pidx_from_some in Hq. destruct Hq as (i & E & _). injection Hp as <-. lia.
  - apply pidx_from_some in Hp. destruct Hp as (i & E & _). injection Hq as <-. lia.
  - apply pidx_from_some in Hq. apply pidx_from_some in Hp.
    destruct Hq as (i & -> & E), Hp as (j & E1 & E2). replace j with i in E2 by lia. congruence.
Qed.

Lemma childs_from_app : forall ps k p q,
  childs_from k (ps ++ [q]) p = childs_from k ps p ++ (if path_eq_dec (removelast q) p then [(lastsel q, k + length ps)] else []).
Proof.
  induction ps as [|r ps IH]; intros k p q.
  - cbn [app childs_from length]. rewrite Nat.add_0_r. destruct (path_eq_dec _ _); reflexivity.
  - cbn [app childs_from]. rewrite IH. replace (S k + length ps) with (k + length (r :: ps)) by (cbn [length]; lia).
    destruct (path_eq_dec (removelast r) p); cbn [app]; reflexivity.
Qed.
Lemma ids_from_app : forall ps k s q,
  ids_from k (ps ++ [q]) s = ids_from k ps s ++ (if selector_eq_dec (lastsel q) s then [k + length ps] else []).
Proof.
  induction ps as [|r ps IH]; intros k s q.
  - cbn [app ids_from length]. rewrite Nat.add_0_r. destruct (selector_eq_dec _ _); reflexivity.
  - cbn [app ids_from]. rewrite IH. replace (S k + length ps) with (k + length (r :: ps)) by (cbn [length]; lia).
    destruct (selector_eq_dec (lastsel r) s); cbn [app]; reflexivity.
Qed.
Lemma pidx_from_app : forall ps k p q, p <> q -> pidx_from k (ps ++ [q]) p = pidx_from k ps p.
Proof.
  induction ps as [|r ps IH]; intros k p q N; cbn [app pidx_from].
  - destruct (path_eq_dec q p); congruence.
  - destruct (path_eq_dec r p); auto.
Qed.
Lemma keys_app : forall ps q, keys (ps ++ [q]) = key_add (keys ps) (lastsel q).
Proof. intros. unfold keys. rewrite map_app, fold_left_app. reflexivity. Qed.
Lemma key_add_in : forall ks s x, In x (key_add ks s) <-> In x ks \/ x = s.
Proof.
  intros. unfold key_add. destruct (in_dec selector_eq_dec s ks).
  - split; auto. intros [H| ->]; auto.
  - rewrite in_app_iff. cbn. intuition.
Qed.
Lemma key_add_nodup : forall ks s, NoDup ks -> NoDup (key_add ks s).
Proof.
  intros. unfold key_add. destruct (in_dec selector_eq_dec s ks); auto.
  apply Permutation_NoDup with (l := s :: ks); [|constructor; auto].
  apply Permutation_cons_append.
Qed.
Lemma keys_in : forall ps s, In s (keys ps) <-> In s (map lastsel ps).
Proof.
  intros ps s. unfold keys.
  assert (G : forall l ks, In s (fold_left key_add l ks) <-> In s ks \/ In s l).
  { induction l as [|x l IH]; intros ks; cbn [fold_left In]; [tauto|]. rewrite IH, key_add_in.
    intuition. }
  rewrite G. cbn; tauto.
Qed.
Lemma keys_nodup : forall ps, NoDup (keys ps).
Proof.
  intros ps. unfold keys.
  assert (G : forall l ks, NoDup ks -> NoDup (fold_left key_add l ks)).
  { induction l as [|x l IH]; intros ks H; cbn [fold_left]; auto. apply IH, key_add_nodup; auto. }
  apply G; constructor.
Qed.

(** The children dictionary, looked up. *)
Lemma nominal_last : forall p, p <> [] -> Forall nominal p -> nominal (lastsel p).
Proof. intros p NE F. rewrite (path_split p NE) in F. apply Forall_app in F. destruct F as [_ F]. inversion F; auto. Qed.
Lemma childs_lookup : forall ps k p s, ~ In [] ps -> Forall (Forall nominal) ps -> nominal s ->
  sel_assoc s (childs_from k ps p) = pidx_from k ps (p ++ [s]).
Proof.
  induction ps as [|q r IH]; intros k p s NE F Hs; [reflexivity|].
  inversion F as [|? ? Fq Fr]; subst. assert (Nq : q <> []) by (intros ->; apply NE; left; auto).
  cbn [childs_from pidx_from]. destruct (path_eq_dec (removelast q) p) as [E|E].
  - cbn [sel_assoc]. rewrite sel_eq_nominalb by (auto using nominal_last).
    destruct (selector_eq_dec (lastsel q) s) as [E2|E2].
    + destruct (path_eq_dec q (p ++ [s])) as [E3|E3]; auto. exfalso; apply E3.
      rewrite (path_split q Nq), E, E2; auto.
    + destruct (path_eq_dec q (p ++ [s])) as [E3|E3].
      * exfalso; apply E2. rewrite E3. apply lastsel_app.
      * apply IH; auto. intros I; apply NE; right; auto.
  - destruct (path_eq_dec q (p ++ [s])) as [E3|E3].
    + exfalso; apply E. rewrite E3. apply removelast_last.
    + apply IH; auto. intros I; apply NE; right; auto.
Qed.

(** Horizontal lists *)
Lemma ids_from_in : forall ps k s j, In j (ids_from k ps s) <-> exists i p, j = k + i /\ nth_error ps i = Some p /\ lastsel p = s.
Proof.
  induction ps as [|q r IH]; intros k s j.
  - cbn. split; [tauto|]. intros (i & p & _ & E & _). destruct i; discriminate.
  - cbn [ids_from].
    assert (G : (In j (ids_from (S k) r s) <-> exists i p, j = S k + i /\ nth_error r i = Some p /\ lastsel p = s)) by apply IH.
    destruct (selector_eq_dec (lastsel q) s) as [E|E]; cbn [In]; rewrite G; split.
    + intros [<-|(i & p & -> & E1 & E2)].
      * exists 0, q; repeat split; auto.
      * exists (S i), p; repeat split; auto; lia.
    + intros ([|i] & p & -> & E1 & E2).
      * left; lia.
      * right. exists i, p; repeat split; auto; lia.
    + intros (i & p & -> & E1 & E2). exists (S i), p; repeat split; auto; lia.
    + intros ([|i] & p & -> & E1 & E2).
      * cbn in E1. congruence.
      * exists i, p; repeat split; auto; lia.
Qed.
Lemma ids_from_sorted : forall ps k s, StronglySorted lt (ids_from k ps s).
Proof.
  induction ps as [|q r IH]; intros k s; cbn [ids_from]; [constructor|].
  destruct (selector_eq_dec (lastsel q) s); auto. constructor; auto.
  apply Forall_forall. intros j H. apply ids_from_in in H. destruct H as (i & p & -> & _). lia.
Qed.
Lemma ids_nonempty : forall ps s, In s (keys ps) <-> ids ps s <> [].
Proof.
  intros. rewrite keys_in, in_map_iff. unfold ids. split.
  - intros (p & E & I) N. destruct (In_nth_error _ _ I) as [i Hi].
    assert (In (1 + i) (ids_from 1 ps s)) as H by (apply ids_from_in; exists i, p; auto). rewrite N in H. destruct H.
  - intros N. destruct (ids_from 1 ps s) as [|j l] eqn:E; [contradiction|].
    assert (In j (ids_from 1 ps s)) as H by (rewrite E; left; auto).
    apply ids_from_in in H. destruct H as (i & p & _ & H & H2). exists p; split; auto. eapply nth_error_In; eauto.
Qed.
Lemma find_app : forall A (f : A -> bool) l1 l2, find f (l1 ++ l2) = match find f l1 with Some x => Some x | None => find f l2 end.
Proof. induction l1 as [|x l1 IH]; intros; cbn; auto. destruct (f x); auto. Qed.
Lemma find_gt_last : forall l x, StronglySorted lt l -> In x l ->
  (find (fun j => x <? j) l = None <-> x = last l 0).
Proof.
  intros l x S I. destruct (exists_last (l := l)) as (l' & z & ->); [intros ->; destruct I|].
  rewrite last_last, find_app. cbn [find].
  assert (Hz : forall y, In y l' -> y < z).
  { clear -S. induction l' as [|y l' IH]; intros w Hw; [destruct Hw|]. inversion S as [|? ? S' F]; subst.
    destruct Hw as [<-|Hw]; [|auto]. rewrite Forall_forall in F. apply F. apply in_or_app; right; left; auto. }
  apply in_app_or in I. destruct I as [I|[<-|[]]].
  - specialize (Hz _ I). assert (x <? z = true) as -> by (apply Nat.ltb_lt; auto).
    destruct (find _ l'); split; intros; try discriminate; lia.
  - rewrite Nat.ltb_irrefl. split; auto. intros _. clear -Hz.
    induction l' as [|y l' IH]; cbn [find]; auto.
    assert (y < z) by (apply Hz; left; auto). destruct (z <? y) eqn:E; [apply Nat.ltb_lt in E; lia|].
    apply IH. intros; apply Hz; right; auto.
Qed.
Lemma last_in : forall A (l : list A) d, l <> [] -> In (last l d) l.
Proof.
  intros A l d N. destruct (exists_last N) as (l' & z & ->). rewrite last_last. apply in_or_app; right; left; auto.
Qed.

(** * Abstract tries *)
Definition padd (v w : Z * Z) : Z * Z := (fst v + fst w, snd v + snd w)%Z.
Definition trie := list (path * (Z * Z)).
Definition paths (A : trie) : list path := map fst A.
Fixpoint abump (A : trie) (p : path) (w : Z * Z) : trie :=
  match A with
  | [] => [(p, w)]
  | (q, v) :: A' => if path_eq_dec q p then (q, padd v w) :: A' else (q, v) :: abump A' p w
  end.
Fixpoint ainsert (A : trie) (pre l : path) (w : Z * Z) : trie :=
  match l with
  | [] => A
  | s :: l' => ainsert (abump A (pre ++ [s]) w) (pre ++ [s]) l' w
  end.

(** Sums of counters over entries *)
Definition pr (k : bool) (w : Z * Z) : Z := if k then fst w else snd w.
Fixpoint asum (k : bool) (Q : path -> bool) (A : trie) : Z :=
  match A with
  | [] => 0%Z
  | (q, v) :: A' => ((if Q q then pr k v else 0) + asum k Q A')%Z
  end.
Lemma pr_padd : forall k v w, pr k (padd v w) = (pr k v + pr k w)%Z.
Proof. destruct k; reflexivity. Qed.
Lemma asum_abump : forall k Q A p w, asum k Q (abump A p w) = (asum k Q A + if Q p then pr k w else 0)%Z.
Proof.
  induction A as [|[q v] A IH]; intros p w; cbn [abump asum]; [lia|].
  destruct (path_eq_dec q p) as [->|N]; cbn [asum].
  - rewrite pr_padd. destruct (Q p); lia.
  - rewrite IH. lia.
Qed.
Lemma paths_abump : forall A p w, paths (abump A p w) = if in_dec path_eq_dec p (paths A) then paths A else paths A ++ [p].
Proof.
  induction A as [|[q v] A IH]; intros p w; cbn [abump paths map fst app]; [reflexivity|].
  destruct (path_eq_dec q p) as [->|N].
  - destruct (in_dec _ _ _) as [I|I]; [reflexivity|]. exfalso; apply I; left; auto.
  - cbn [map fst]. fold (paths (abump A p w)) (paths A). rewrite IH. destruct (in_dec path_eq_dec p (paths A)) as [I|I].
    + destruct (in_dec path_eq_dec p (q :: paths A)) as [I'|I']; auto. exfalso; apply I'; right; auto.
    + destruct (in_dec path_eq_dec p (q :: paths A)) as [I'|I']; auto. destruct I'; [congruence|contradiction].
Qed.
Lemma abump_new : forall A p w, ~ In p (paths A) -> abump A p w = A ++ [(p, w)].
Proof.
  induction A as [|[q v] A IH]; intros p w N; cbn [abump app]; auto.
  destruct (path_eq_dec q p) as [->|N']; [exfalso; apply N; left; auto|]. rewrite IH; auto. intros I; apply N; right; auto.
Qed.
Lemma abump_old : forall A p w i, NoDup (paths A) -> nth_error (paths A) i = Some p ->
  forall j, nth_error (abump A p w) j =
    if Nat.eqb j i then option_map (fun e => (fst e, padd (snd e) w)) (nth_error A j) else nth_error A j.
Proof.
  induction A as [|[q v] A IH]; intros p w i ND H j; [destruct i; discriminate|].
  cbn [abump]. cbn [paths map fst] in ND, H. fold (paths A) in ND, H. inversion ND as [|? ? N1 N2]; subst.
  destruct i as [|i]; cbn [nth_error] in H.
  - injection H as ->. destruct (path_eq_dec p p) as [_|N]; [|congruence]. destruct j; reflexivity.
  - destruct (path_eq_dec q p) as [->|N].
    + exfalso; apply N1. eapply nth_error_In; eauto.
    + destruct j; cbn [nth_error Nat.eqb]; auto.
Qed.
Lemma valid_abump : forall A pre s w, valid (paths A) -> pre = [] \/ In pre (paths A) -> Forall nominal pre -> nominal s ->
  valid (paths (abump A (pre ++ [s]) w)).
Proof.
  intros A pre s w (ND & NE & PC & F) Hpre Fp Hs. rewrite paths_abump.
  destruct (in_dec path_eq_dec (pre ++ [s]) (paths A)) as [I|I]; [repeat split; auto|].
  repeat split.
  - apply Permutation_NoDup with (l := (pre ++ [s]) :: paths A); [apply Permutation_cons_append|constructor; auto].
  - rewrite in_app_iff. intros [H|[H|[]]]; [auto|]. destruct pre; discriminate.
  - intros p x H. apply in_app_or in H. rewrite in_app_iff. destruct H as [H|[H|[]]].
    + destruct (PC _ _ H); auto.
    + apply app_inj_tail in H. destruct H as [-> ->]. destruct Hpre; auto.
  - apply Forall_app; split; auto. constructor; auto. apply Forall_app; split; auto.
Qed.
Lemma in_paths_abump : forall A p w, In p (paths (abump A p w)).
Proof.
  intros. rewrite paths_abump. destruct (in_dec path_eq_dec p (paths A)); auto. apply in_or_app; right; left; auto.
Qed.

(** * Representation *)
Definition header_of (A : trie) : list (selector * hentry) :=
  map (fun s => (s, HE (asum true (fun p => if selector_eq_dec (lastsel p) s then true else false) A)
                       (asum false (fun p => if selector_eq_dec (lastsel p) s then true else false) A)
                       (hd 0 (ids (paths A) s)) (last (ids (paths A) s) 0))) (keys (paths A)).
Definition node_of (A : trie) (i : nat) (p : path) (v : Z * Z) : node :=
  Node (lastsel p) (fst v) (snd v) (link (paths A) (lastsel p) (S i)) (childs_from 1 (paths A) p) (pid (paths A) (removelast p)).
Definition represents (t : fptree) (A : trie) : Prop :=
  valid (paths A) /\
  length (t_nodes t) = S (length A) /\
  (exists r, nth_error (t_nodes t) 0 = Some r /\ nd_childs r = childs_from 1 (paths A) []) /\
  (forall i p v, nth_error A i = Some (p, v) -> nth_error (t_nodes t) (S i) = Some (node_of A i p v)) /\
  t_header t = header_of A.

Lemma represents_empty : represents empty_tree [].
Proof.
  split; [|split; [reflexivity|split; [|split; [|reflexivity]]]].
  - repeat split; cbn; try constructor; auto; intros; contradiction.
  - eexists; split; reflexivity.
  - intros [|i]; discriminate.
Qed.

Lemma sel_assoc_map : forall B (g : selector -> B) ks s, Forall nominal ks -> nominal s ->
  sel_assoc s (map (fun x => (x, g x)) ks) = if in_dec selector_eq_dec s ks then Some (g s) else None.
Proof.
  induction ks as [|k ks IH]; intros s F Hs; cbn [map sel_assoc].
  - destruct (in_dec _ _ _) as [[]|]; reflexivity.
  - inversion F; subst. rewrite sel_eq_nominalb by auto. destruct (selector_eq_dec k s) as [->|N].
    + destruct (in_dec _ _ _) as [I|I]; auto. exfalso; apply I; left; auto.
    + rewrite IH by auto. destruct (in_dec selector_eq_dec s ks) as [I|I], (in_dec selector_eq_dec s (k :: ks)) as [I'|I']; auto.
      * exfalso; apply I'; right; auto.
      * destruct I'; [congruence|contradiction].
Qed.
Lemma sel_assoc_upd_map : forall B (g : selector -> B) (f : B -> B) ks s, NoDup ks -> Forall nominal ks -> nominal s ->
  sel_assoc_upd s f (map (fun x => (x, g x)) ks) = map (fun x => (x, if selector_eq_dec x s then f (g x) else g x)) ks.
Proof.
  induction ks as [|k ks IH]; intros s ND F Hs; cbn [map sel_assoc_upd]; auto.
  inversion F; subst. inversion ND; subst. rewrite sel_eq_nominalb by auto. destruct (selector_eq_dec k s) as [->|N].
  - f_equal. apply map_ext_in. intros x I. destruct (selector_eq_dec x s) as [->|]; [contradiction|reflexivity].
  - rewrite IH; auto.
Qed.
Lemma keys_nominal : forall ps, ~ In [] ps -> Forall (Forall nominal) ps -> Forall nominal (keys ps).
Proof.
  intros ps NE F. apply Forall_forall. intros s H. apply keys_in in H. apply in_map_iff in H. destruct H as (p & <- & I).
  apply nominal_last; [intros ->; contradiction|]. rewrite Forall_forall in F; auto.
Qed.

Lemma node_at : forall t A p c, represents t A -> (p = [] \/ In p (paths A)) -> pid (paths A) p = Some c ->
  exists n, nth_error (t_nodes t) c = Some n /\ nd_childs n = childs_from 1 (paths A) p /\ (c = 0 <-> p = []).
Proof.
  intros t A p c (V & L & (r & R1 & R2) & N & H) I E. destruct p as [|s p].
  - injection E as <-. exists r; intuition.
  - destruct I as [I|I]; [discriminate|]. cbn [pid] in E. apply pidx_from_some in E. destruct E as (i & -> & E).
    unfold paths in E. rewrite nth_error_map in E. destruct (nth_error A i) as [[q v]|] eqn:E2; [|discriminate].
    cbn in E. injection E as ->. cbn [Nat.add]. rewrite (N _ _ _ E2). eexists; split; [reflexivity|].
    split; [reflexivity|split; discriminate].
Qed.
Lemma header_lookup : forall t A s, represents t A -> nominal s ->
  sel_assoc s (t_header t) =
    if in_dec selector_eq_dec s (keys (paths A)) then
      Some (HE (asum true (fun p => if selector_eq_dec (lastsel p) s then true else false) A)
               (asum false (fun p => if selector_eq_dec (lastsel p) s then true else false) A)
               (hd 0 (ids (paths A) s)) (last (ids (paths A) s) 0))
    else None.
Proof.
  intros t A s (V & L & R & N & H) Hs. rewrite H. unfold header_of.
  destruct V as (ND & NE & PC & F).
  rewrite (sel_assoc_map _ (fun s => HE _ _ _ _)); auto using keys_nominal.
Qed.

(** Closed forms only depend on the paths. *)
Lemma node_of_paths : forall A B i p v, paths A = paths B -> node_of A i p v = node_of B i p v.
Proof. intros A B i p v E. unfold node_of. rewrite E. reflexivity. Qed.

Lemma insert_existing : forall t A pre s c w, represents t A -> Forall nominal pre -> nominal s ->
  (pre = [] \/ In pre (paths A)) -> pid (paths A) (pre ++ [s]) = Some c ->
  represents (FPT (upd c (bump (fst w) (snd w)) (t_nodes t))
                  (sel_assoc_upd s (fun e => HE (he_tp e + fst w) (he_fp e + snd w) (he_first e) (he_last e)) (t_header t))
                  (t_sorted t)) (abump A (pre ++ [s]) w).
Proof.
  intros t A pre s c w R Fp Hs Ip E. pose proof R as (V & L & (r & R1 & R2) & N & H).
  assert (Q : pid (paths A) (pre ++ [s]) = pidx_from 1 (paths A) (pre ++ [s])) by (destruct pre; reflexivity).
  rewrite Q in E. apply pidx_from_some in E. destruct E as (i & -> & E).
  assert (I : In (pre ++ [s]) (paths A)) by (eapply nth_error_In; eauto).
  assert (P : paths (abump A (pre ++ [s]) w) = paths A).
  { rewrite paths_abump. destruct (in_dec _ _ _); [reflexivity|contradiction]. }
  destruct V as (ND & NE & PC & F).
  split; [rewrite P; repeat split; auto|]. cbn [t_nodes t_header t_sorted].
  split; [|split; [|split]].
  - rewrite length_upd, L. f_equal. transitivity (length (paths A)); [unfold paths; symmetry; apply map_length|].
    rewrite <- P. unfold paths. apply map_length.
  - exists r. rewrite nth_error_upd. cbn [Nat.add Nat.eqb]. rewrite P. auto.
  - intros j p v Hj. rewrite (node_of_paths _ A) by auto. rewrite (abump_old A _ w i) in Hj by auto.
    rewrite nth_error_upd. cbn [Nat.add Nat.eqb]. destruct (Nat.eqb j i) eqn:Eji.
    + apply Nat.eqb_eq in Eji; subst j. destruct (nth_error A i) as [[q u]|] eqn:E2; [|discriminate].
      cbn [option_map fst snd] in Hj. injection Hj as <- <-. rewrite (N _ _ _ E2). reflexivity.
    + apply N; auto.
  - rewrite H. unfold header_of. rewrite (sel_assoc_upd_map _ (fun s => HE _ _ _ _)); auto using keys_nodup, keys_nominal.
    rewrite P. apply map_ext_in. intros x Ix. rewrite !asum_abump, lastsel_app.
    destruct (selector_eq_dec x s) as [->|Nx].
    + destruct (selector_eq_dec s s); [|contradiction]. reflexivity.
    + destruct (selector_eq_dec s x); [congruence|]. rewrite !Z.add_0_r. reflexivity.
Qed.

Lemma link_app : forall ps s id q, link (ps ++ [q]) s id =
  match link ps s id with Some j => Some j
  | None => if selector_eq_dec (lastsel q) s then (if id <? S (length ps) then Some (S (length ps)) else None) else None end.
Proof.
  intros. unfold link, ids. rewrite ids_from_app, find_app. destruct (find _ _); auto.
  destruct (selector_eq_dec (lastsel q) s); reflexivity.
Qed.
Lemma pid_app : forall ps p q, p <> q -> pid (ps ++ [q]) p = pid ps p.
Proof. intros ps [|s p] q N; cbn [pid]; auto. apply pidx_from_app; auto. Qed.
Lemma pid_app_new : forall ps q, q <> [] -> ~ In q ps -> pid (ps ++ [q]) q = Some (S (length ps)).
Proof.
  intros ps q NE NI. unfold pid. destruct q as [|s q]; [contradiction|].
  set (x := s :: q) in *. clearbody x. change (S (length ps)) with (1 + length ps). generalize 1 as k.
  induction ps as [|r ps IH]; intros k; cbn [app pidx_from length].
  - destruct (path_eq_dec x x); [|contradiction]. f_equal; lia.
  - destruct (path_eq_dec r x) as [->|N]; [exfalso; apply NI; left; auto|]. rewrite IH; [f_equal; lia|].
    intros I; apply NI; right; auto.
Qed.
Lemma childs_none : forall ps k p, (forall s, ~ In (p ++ [s]) ps) -> ~ In [] ps -> childs_from k ps p = [].
Proof.
  induction ps as [|q r IH]; intros k p N NE; cbn [childs_from]; auto.
  destruct (path_eq_dec (removelast q) p) as [E|E].
  - exfalso. apply (N (lastsel q)). left. rewrite <- E. apply path_split. intros ->; apply NE; left; auto.
  - apply IH; [intros s I; apply (N s); right; auto | intros I; apply NE; right; auto].
Qed.
Lemma link_none_new : forall ps s id, length ps < id -> link ps s id = None.
Proof.
  intros ps s id Hid. unfold link. destruct (find _ _) eqn:E; auto. apply find_some in E. destruct E as [I G].
  apply ids_from_in in I. destruct I as (i & p & -> & E & _). apply Nat.ltb_lt in G.
  assert (i < length ps) by (apply nth_error_Some; congruence). lia.
Qed.

Lemma insert_new : forall t A pre s cur w, represents t A -> Forall nominal pre -> nominal s ->
  (pre = [] \/ In pre (paths A)) -> pid (paths A) pre = Some cur -> pid (paths A) (pre ++ [s]) = None ->
  exists h, add_child (t_nodes t ++ [Node s (fst w) (snd w) None [] None]) cur (length (t_nodes t)) = Ok h /\
  represents
    (match sel_assoc s (t_header t) with
     | Some e => FPT (upd (he_last e) (set_link (Some (length (t_nodes t)))) h)
                   (sel_assoc_upd s (fun e => HE (he_tp e + fst w) (he_fp e + snd w) (he_first e) (length (t_nodes t))) (t_header t))
                   (t_sorted t)
     | None => FPT h (t_header t ++ [(s, HE (fst w) (snd w) (length (t_nodes t)) (length (t_nodes t)))]) (t_sorted t)
     end) (abump A (pre ++ [s]) w).
Proof.
  intros t A pre s cur w R Fp Hs Ip Ec E. pose proof R as (V & L & (r & R1 & R2) & N & H).
  pose proof V as (ND & NE & PC & F).
  assert (Q : pid (paths A) (pre ++ [s]) = pidx_from 1 (paths A) (pre ++ [s])) by (destruct pre; reflexivity).
  rewrite Q in E. assert (NI : ~ In (pre ++ [s]) (paths A)) by (apply pidx_from_none in E; auto).
  assert (LP : length (paths A) = length A) by apply map_length.
  destruct (node_at t A pre cur R Ip Ec) as (n & Hn & Hc & H0).
  assert (Lc : cur < length (t_nodes t)) by (apply nth_error_Some; congruence).
  set (new := Node s (fst w) (snd w) None [] None).
  set (c := length (t_nodes t)). fold c in Lc.
  assert (G1 : nth_error (t_nodes t ++ [new]) cur = Some n) by (rewrite nth_error_app1; auto).
  assert (G2 : nth_error (t_nodes t ++ [new]) c = Some new) by (rewrite nth_error_app2 by (unfold c; lia); unfold c; rewrite Nat.sub_diag; reflexivity).
  assert (G3 : sel_assoc s (nd_childs n) = None) by (rewrite Hc, childs_lookup; auto).
  set (h := upd cur (fun x => set_childs (nd_childs x ++ [(s, c)]) x) (upd c (set_parent (Some cur)) (t_nodes t ++ [new]))).
  exists h. split.
  { unfold add_child. rewrite G1, G2. cbn [nd_sel new]. rewrite G3. reflexivity. }
  assert (Lh : length h = S (S (length A))) by (unfold h; rewrite !length_upd, app_length, L; cbn; lia).
  assert (P : paths (abump A (pre ++ [s]) w) = paths A ++ [pre ++ [s]]).
  { rewrite paths_abump. destruct (in_dec _ _ _); [contradiction|reflexivity]. }
  assert (EA : abump A (pre ++ [s]) w = A ++ [(pre ++ [s], w)]) by (apply abump_new; auto).
  assert (V' : valid (paths (abump A (pre ++ [s]) w))) by (apply valid_abump; auto).
  assert (Lcc : c = S (length A)) by (unfold c; auto).
  (* nodes of h, before the link update *)
  assert (K0 : exists r', nth_error h 0 = Some r' /\ nd_childs r' = childs_from 1 (paths A ++ [pre ++ [s]]) []).
  { unfold h. rewrite nth_error_upd. rewrite nth_error_upd.
    replace (Nat.eqb 0 c) with false by (rewrite Lcc; reflexivity).
    rewrite nth_error_app1 by lia. rewrite R1. rewrite childs_from_app, removelast_last, lastsel_app, LP.
    destruct (Nat.eqb 0 cur) eqn:Ez.
    - apply Nat.eqb_eq in Ez. destruct (path_eq_dec pre []) as [->|X]; [|exfalso; apply X; apply H0; auto].
      eexists; split; [reflexivity|]. cbn [nd_childs set_childs]. rewrite R2, Lcc. reflexivity.
    - apply Nat.eqb_neq in Ez. destruct (path_eq_dec pre []) as [->|X]; [exfalso; apply Ez; symmetry; apply H0; auto|].
      eexists; split; [reflexivity|]. rewrite app_nil_r. auto. }
  assert (K1 : forall i p v, nth_error A i = Some (p, v) -> exists m, nth_error h (S i) = Some m /\
            m = Node (lastsel p) (fst v) (snd v) (link (paths A) (lastsel p) (S i)) (childs_from 1 (paths A ++ [pre ++ [s]]) p) (pid (paths A) (removelast p))).
  { intros i p v Hi. unfold h. rewrite !nth_error_upd.
    assert (Li : i < length A) by (apply nth_error_Some; congruence).
    replace (Nat.eqb (S i) c) with false by (symmetry; apply Nat.eqb_neq; lia).
    rewrite nth_error_app1 by lia. rewrite (N _ _ _ Hi). rewrite childs_from_app, removelast_last, lastsel_app, LP.
    assert (Hp : nth_error (paths A) i = Some p) by (unfold paths; rewrite nth_error_map, Hi; reflexivity).
    assert (Np : p <> []) by (intros ->; apply NE; eapply nth_error_In; eauto).
    destruct (Nat.eqb (S i) cur) eqn:Ez.
    - apply Nat.eqb_eq in Ez. assert (pid (paths A) p = Some (S i)) by (apply pid_node; auto).
      assert (pre = p) as -> by (eapply pid_inj; eauto; congruence).
      destruct (path_eq_dec p p); [|contradiction]. eexists; split; [reflexivity|].
      unfold set_childs, node_of; cbn. rewrite Lcc. reflexivity.
    - apply Nat.eqb_neq in Ez. destruct (path_eq_dec pre p) as [->|X].
      { exfalso. apply Ez. assert (pid (paths A) p = Some (S i)) by (apply pid_node; auto). congruence. }
      eexists; split; [reflexivity|]. rewrite app_nil_r. reflexivity. }
  assert (K2 : nth_error h c = Some (Node s (fst w) (snd w) None [] (Some cur))).
  { unfold h. rewrite !nth_error_upd. replace (Nat.eqb c cur) with false by (symmetry; apply Nat.eqb_neq; lia).
    rewrite Nat.eqb_refl, G2. reflexivity. }
  assert (K3 : forall i p v, nth_error (abump A (pre ++ [s]) w) i = Some (p, v) ->
             (i < length A /\ nth_error A i = Some (p, v)) \/ (i = length A /\ p = pre ++ [s] /\ v = w)).
  { intros i p v Hi. rewrite EA in Hi. destruct (Nat.lt_ge_cases i (length A)) as [C|C].
    - left. split; auto. rewrite nth_error_app1 in Hi; auto.
    - right. rewrite nth_error_app2 in Hi by lia. destruct (i - length A) eqn:D; cbn in Hi.
      + injection Hi as <- <-. repeat split; lia.
      + destruct n0; discriminate. }
  assert (Sorted_ids := ids_from_sorted (paths A) 1 s).
  assert (K4 : node_of (abump A (pre ++ [s]) w) (length A) (pre ++ [s]) w = Node s (fst w) (snd w) None [] (Some cur)).
  { unfold node_of. rewrite P, lastsel_app, removelast_last. f_equal.
    - rewrite link_app, LP, link_none_new by (rewrite LP; lia).
      destruct (selector_eq_dec _ _); auto. rewrite Nat.ltb_irrefl; auto.
    - apply childs_none.
      + intros x I. apply in_app_or in I. destruct I as [I|[I|[]]].
        * destruct (PC _ _ I) as [I2|I2]; [destruct pre; discriminate|contradiction].
        * apply (f_equal (@length selector)) in I. rewrite !app_length in I. cbn in I. lia.
      + rewrite <- P. apply V'.
    - rewrite pid_app; auto. intros X. apply (f_equal (@length selector)) in X. rewrite !app_length in X; cbn in X; lia. }
  assert (K5 : forall i p v, nth_error A i = Some (p, v) ->
       node_of (abump A (pre ++ [s]) w) i p v =
       Node (lastsel p) (fst v) (snd v) (link (paths A ++ [pre ++ [s]]) (lastsel p) (S i)) (childs_from 1 (paths A ++ [pre ++ [s]]) p) (pid (paths A) (removelast p))).
  { intros i p v Hi. unfold node_of. rewrite P. f_equal. apply pid_app. intros X.
    assert (Hp : nth_error (paths A) i = Some p) by (unfold paths; rewrite nth_error_map, Hi; reflexivity).
    assert (Np : p <> []) by (intros ->; apply NE; eapply nth_error_In; eauto).
    pose proof (nth_error_In _ _ Hp) as Ipp. rewrite (path_split p Np), X in Ipp.
    destruct (PC _ _ Ipp) as [Y|Y]; [destruct pre; discriminate|contradiction]. }
  rewrite (header_lookup t A s R Hs). destruct (in_dec selector_eq_dec s (keys (paths A))) as [Is|Is].
  - (* the selector already has an entry *)
    cbn [he_last]. split; [auto|]. cbn [t_nodes t_header].
    assert (Ilast : In (last (ids (paths A) s) 0) (ids (paths A) s)) by (apply last_in, ids_nonempty; auto).
    pose proof Ilast as Ilast2. apply ids_from_in in Ilast2. destruct Ilast2 as (il & pl & Hil & Hpl & Hlast).
    split; [|split; [|split]].
    + rewrite length_upd, Lh. rewrite EA, app_length. cbn; lia.
    + destruct K0 as (r' & K01 & K02). exists r'. rewrite nth_error_upd, Hil. cbn [Nat.add Nat.eqb]. rewrite P. auto.
    + intros i p v Hi. rewrite nth_error_upd. destruct (K3 _ _ _ Hi) as [[Li Ha]|(-> & -> & ->)].
      * destruct (K1 _ _ _ Ha) as (m & Hm & ->). rewrite Hm. rewrite K5 by auto.
        assert (Hp : nth_error (paths A) i = Some p) by (unfold paths; rewrite nth_error_map, Ha; reflexivity).
        destruct (Nat.eqb (S i) (last (ids (paths A) s) 0)) eqn:El.
        -- apply Nat.eqb_eq in El. assert (i = il) by lia. subst il. assert (pl = p) by congruence. subst pl.
           cbn [option_map]. unfold set_link; cbn. rewrite link_app, lastsel_app, LP, Hlast.
           assert (link (paths A) s (S i) = None) as ->.
           { unfold link. apply find_gt_last; auto. rewrite El; auto. }
           destruct (selector_eq_dec s s); [|contradiction]. replace (S i <? S (length A)) with true by (symmetry; apply Nat.ltb_lt; lia).
           f_equal. f_equal. f_equal. auto.
        -- apply Nat.eqb_neq in El. f_equal. f_equal. rewrite link_app, lastsel_app.
           destruct (link (paths A) (lastsel p) (S i)) eqn:EL; auto.
           destruct (selector_eq_dec s (lastsel p)) as [Es|]; auto. exfalso; apply El. rewrite Es.
           apply find_gt_last; [apply ids_from_sorted| |exact EL].
           apply ids_from_in. exists i, p; auto.
      * replace (S (length A)) with c. replace (Nat.eqb c (last (ids (paths A) s) 0)) with false.
        -- rewrite K2, K4; reflexivity.
        -- symmetry; apply Nat.eqb_neq. rewrite Hil. assert (il < length (paths A)) by (apply nth_error_Some; congruence). lia.
    + rewrite H. unfold header_of. rewrite (sel_assoc_upd_map _ (fun s => HE _ _ _ _)); auto using keys_nodup, keys_nominal.
      rewrite P, keys_app, lastsel_app. unfold key_add. destruct (in_dec selector_eq_dec s (keys (paths A))); [|contradiction].
      apply map_ext_in. intros x Ix. rewrite !asum_abump, lastsel_app.
      unfold ids; rewrite ids_from_app, lastsel_app, LP. cbn [he_tp he_fp he_first]. destruct (selector_eq_dec x s) as [->|Nx].
      * destruct (selector_eq_dec s s); [|contradiction]. rewrite last_last. cbn [pr]. f_equal. f_equal; [|lia].
        assert (Hne : ids (paths A) s <> []) by (apply ids_nonempty; auto). unfold ids in Hne.
        destruct (ids_from 1 (paths A) s); [contradiction|reflexivity].
      * destruct (selector_eq_dec s x); [congruence|]. rewrite !Z.add_0_r, app_nil_r. reflexivity.
  - (* new selector *)
    split; [auto|]. cbn [t_nodes t_header]. split; [|split; [|split]].
    + rewrite Lh, EA, app_length. cbn; lia.
    + rewrite P; auto.
    + intros i p v Hi. destruct (K3 _ _ _ Hi) as [[Li Ha]|(-> & -> & ->)].
      * destruct (K1 _ _ _ Ha) as (m & Hm & ->). rewrite Hm. rewrite K5 by auto. f_equal. f_equal.
        rewrite link_app, lastsel_app. destruct (link (paths A) (lastsel p) (S i)); auto.
        destruct (selector_eq_dec s (lastsel p)) as [Es|]; auto. exfalso; apply Is. apply keys_in. rewrite Es.
        apply in_map. change p with (fst (p, v)). unfold paths. apply in_map. eapply nth_error_In; eauto.
      * rewrite K4, <- K2, Lcc. reflexivity.
    + rewrite H. unfold header_of. rewrite P, keys_app, lastsel_app. unfold key_add.
      destruct (in_dec selector_eq_dec s (keys (paths A))); [contradiction|]. rewrite map_app. f_equal.
      * apply map_ext_in. intros x Ix. rewrite !asum_abump, lastsel_app. unfold ids; rewrite ids_from_app, lastsel_app.
        destruct (selector_eq_dec s x) as [->|]; [contradiction|]. rewrite !Z.add_0_r, app_nil_r. reflexivity.
      * assert (Z0 : forall k, asum k (fun p => if selector_eq_dec (lastsel p) s then true else false) A = 0%Z).
        { intros k. assert (X : forall e, In e A -> lastsel (fst e) <> s).
          { intros e Ie Y. apply Is. apply keys_in. rewrite <- Y. apply in_map. unfold paths. apply in_map; auto. }
          clear -X. induction A as [|[q v] A IH]; cbn [asum]; auto. destruct (selector_eq_dec (lastsel q) s) as [Y|Y].
          - exfalso; apply (X (q, v)); [left; auto|auto].
          - rewrite IH; auto. intros e Ie; apply X; right; auto. }
        cbn [map]. rewrite !asum_abump, !Z0, lastsel_app. unfold ids; rewrite ids_from_app, lastsel_app, LP.
        destruct (selector_eq_dec s s); [|contradiction].
        assert (ids (paths A) s = []) as Zi. { destruct (ids (paths A) s) eqn:Ei; auto. exfalso; apply Is, ids_nonempty. congruence. }
        unfold ids in Zi. rewrite Zi. cbn [app hd last pr Nat.add]. rewrite Lcc. reflexivity.
Qed.

(** Inserting a list of selectors, from any node. *)
Lemma insert_path_represents : forall l t A pre cur w, represents t A -> Forall nominal pre -> Forall nominal l ->
  (pre = [] \/ In pre (paths A)) -> pid (paths A) pre = Some cur ->
  exists t', insert_path t cur l (fst w) (snd w) = Ok t' /\ represents t' (ainsert A pre l w) /\ t_sorted t' = t_sorted t.
Proof.
  induction l as [|s l IH]; intros t A pre cur w R Fp Fl Ip E; cbn [insert_path ainsert]; [eauto|].
  inversion Fl as [|? ? Hs Fl']; subst.
  pose proof R as (V & _). pose proof V as (ND & NE & PC & F).
  destruct (node_at t A pre cur R Ip E) as (n & Hn & Hc & _).
  assert (Q : pid (paths A) (pre ++ [s]) = pidx_from 1 (paths A) (pre ++ [s])) by (destruct pre; reflexivity).
  unfold get_child_by_selector. rewrite Hn, Hc, childs_lookup, <- Q by auto.
  assert (V' : valid (paths (abump A (pre ++ [s]) w))) by (apply valid_abump; auto).
  assert (F' : Forall nominal (pre ++ [s])) by (apply Forall_app; auto).
  destruct (pid (paths A) (pre ++ [s])) as [c|] eqn:Ec.
  - pose proof (insert_existing t A pre s c w R Fp Hs Ip Ec) as R'.
    assert (Ik : In s (keys (paths A))).
    { symmetry in Q. apply pidx_from_some in Q. destruct Q as (i & _ & Q). apply keys_in. apply in_map_iff.
      exists (pre ++ [s]). split; [apply lastsel_app|]. eapply nth_error_In; eauto. }
    rewrite (header_lookup t A s R Hs). destruct (in_dec selector_eq_dec s (keys (paths A))); [|contradiction].
    destruct (IH _ _ (pre ++ [s]) c w R') as (t' & H1 & H2 & H3); auto.
    + right. apply in_paths_abump.
    + rewrite paths_abump. destruct (in_dec _ _ _) as [|NI]; [auto|]. exfalso; apply NI.
      symmetry in Q. apply pidx_from_some in Q. destruct Q as (i0 & _ & Q). eapply nth_error_In; eauto.
    + eauto.
  - cbn [new_node]. destruct (insert_new t A pre s cur w R Fp Hs Ip E Ec) as (h & -> & R'). cbn [bind].
    assert (P : paths (abump A (pre ++ [s]) w) = paths A ++ [pre ++ [s]]).
    { rewrite paths_abump. destruct (in_dec _ _ _) as [I|]; [|reflexivity]. symmetry in Q. apply pidx_from_none in Q. contradiction. }
    assert (Lc : length (t_nodes t) = S (length A)) by apply R.
    assert (PN : pid (paths (abump A (pre ++ [s]) w)) (pre ++ [s]) = Some (length (t_nodes t))).
    { rewrite P, pid_app_new; [|destruct pre; discriminate|symmetry in Q; apply pidx_from_none in Q; auto].
      f_equal. rewrite Lc. f_equal. apply map_length. }
    destruct (sel_assoc s (t_header t)) as [e|].
    + destruct (IH _ _ (pre ++ [s]) (length (t_nodes t)) w R') as (t' & H1 & H2 & H3); eauto. right. apply in_paths_abump.
    + destruct (IH _ _ (pre ++ [s]) (length (t_nodes t)) w R') as (t' & H1 & H2 & H3); eauto. right. apply in_paths_abump.
Qed.
