(** Weighted transaction databases; the tree of a database; conditional trees as projections. *)
From Verif Require Export FPTreeProofs SDMapModel.
From Verif Require Import OrderFacts.
Open Scope list_scope.
Open Scope nat_scope.

Definition db := list (list selector * (Z * Z)).
Definition inb (s : selector) (l : list selector) : bool := if in_dec selector_eq_dec s l then true else false.
Lemma inb_true : forall s l, inb s l = true <-> In s l.
Proof. intros; unfold inb; destruct (in_dec _ _ _); intuition discriminate. Qed.
Lemma inb_false : forall s l, inb s l = false <-> ~ In s l.
Proof. intros; unfold inb; destruct (in_dec _ _ _); intuition discriminate. Qed.
Definition subb (Y t : list selector) : bool := forallb (fun y => inb y t) Y.
Lemma subb_true : forall Y t, subb Y t = true <-> incl Y t.
Proof. intros. unfold subb. rewrite forallb_forall. unfold incl. split; intros H y I; [apply inb_true|apply inb_true]; auto. Qed.
Definition cnt (k : bool) (D : db) (Y : list selector) : Z := asum k (subb Y) D.
Definition cn (D : db) (Y : list selector) : Z := (cnt true D Y + cnt false D Y)%Z.

Fixpoint before (s : selector) (l : list selector) : list selector :=
  match l with
  | [] => []
  | x :: l' => if selector_eq_dec x s then [] else x :: before s l'
  end.
Fixpoint psum (k : bool) (Q : path -> bool) (pre l : path) (w : Z * Z) : Z :=
  match l with
  | [] => 0%Z
  | s :: l' => ((if Q (pre ++ [s]) then pr k w else 0) + psum k Q (pre ++ [s]) l' w)%Z
  end.
Lemma asum_ainsert : forall k Q l A pre w, asum k Q (ainsert A pre l w) = (asum k Q A + psum k Q pre l w)%Z.
Proof.
  induction l as [|s l IH]; intros A pre w; cbn [ainsert psum]; [lia|]. rewrite IH, asum_abump. lia.
Qed.
Definition build_from (A : trie) (D : db) : trie := fold_left (fun A e => ainsert A [] (fst e) (snd e)) D A.
Definition build (D : db) : trie := build_from [] D.
Lemma asum_build_from : forall k Q D A, asum k Q (build_from A D) =
  (asum k Q A + fold_right (fun e z => psum k Q [] (fst e) (snd e) + z) 0 D)%Z.
Proof.
  induction D as [|e D IH]; intros A; cbn [build_from fold_left fold_right]; [lia|].
  change (fold_left _ D ?X) with (build_from X D). rewrite IH, asum_ainsert. lia.
Qed.

(** Entries whose path ends with [s]. *)
Definition ends (s : selector) (P : path -> bool) (p : path) : bool :=
  if selector_eq_dec (lastsel p) s then P (removelast p) else false.
Lemma psum_none : forall k s P l pre w, ~ In s l -> psum k (ends s P) pre l w = 0%Z.
Proof.
  induction l as [|x l IH]; intros pre w N; cbn [psum]; auto.
  unfold ends at 1. rewrite lastsel_app. destruct (selector_eq_dec x s) as [->|]; [exfalso; apply N; left; auto|].
  rewrite IH; auto. intros I; apply N; right; auto.
Qed.
Lemma psum_ends : forall k s P l pre w, NoDup l ->
  psum k (ends s P) pre l w = if inb s l then (if P (pre ++ before s l) then pr k w else 0)%Z else 0%Z.
Proof.
  induction l as [|x l IH]; intros pre w ND; cbn [psum before].
  - reflexivity.
  - inversion ND; subst. unfold ends at 1. rewrite lastsel_app, removelast_last.
    destruct (selector_eq_dec x s) as [->|N].
    + rewrite psum_none by auto. replace (inb s (s :: l)) with true by (symmetry; apply inb_true; left; auto).
      rewrite app_nil_r. lia.
    + rewrite IH by auto. rewrite <- app_assoc. cbn [app].
      replace (inb s (x :: l)) with (inb s l); [lia|].
      destruct (inb s l) eqn:E; symmetry.
      * apply inb_true in E. apply inb_true; right; auto.
      * apply inb_false in E. apply inb_false. intros [|]; [congruence|contradiction].
Qed.
Lemma asum_fold : forall k Q (D : db), asum k Q D = fold_right (fun e z => (if Q (fst e) then pr k (snd e) else 0) + z)%Z 0%Z D.
Proof. induction D as [|[p w] D IH]; cbn [asum fold_right fst snd]; congruence. Qed.
Lemma asum_ends_build : forall k s P D, (forall e, In e D -> NoDup (fst e)) ->
  asum k (ends s P) (build D) = asum k (fun t => inb s t && P (before s t)) D.
Proof.
  intros k s P D H. unfold build. rewrite asum_build_from. change (asum k (ends s P) []) with 0%Z. rewrite Z.add_0_l.
  revert H. induction D as [|[t w] D IH]; intros H; cbn [fold_right fst snd asum]; auto.
  rewrite IH by (intros e I; apply H; right; auto).
  rewrite psum_ends by (apply (H (t, w)); left; auto). cbn [app].
  destruct (inb s t); cbn [andb]; reflexivity.
Qed.
Lemma asum_ext : forall k Q Q' A, (forall e, In e A -> Q (fst e) = Q' (fst e)) -> asum k Q A = asum k Q' A.
Proof.
  induction A as [|[p w] A IH]; intros H; cbn [asum]; auto.
  rewrite (IH ltac:(intros e I; apply H; right; auto)). pose proof (H (p, w) (or_introl eq_refl)) as E. cbn in E. rewrite E; auto.
Qed.

(** Paths of the trie of a database: the non-empty prefixes of its transactions. *)
Definition prefix (p t : path) : Prop := exists r, t = p ++ r.
Lemma paths_ainsert : forall l A pre w q, In q (paths (ainsert A pre l w)) <->
  In q (paths A) \/ exists l1 s l2, l = l1 ++ s :: l2 /\ q = pre ++ l1 ++ [s].
Proof.
  induction l as [|x l IH]; intros A pre w q; cbn [ainsert].
  - split; auto. intros [H|(l1 & s & l2 & H & _)]; auto. destruct l1; discriminate.
  - rewrite IH. rewrite paths_abump.
    assert (G : In q (if in_dec path_eq_dec (pre ++ [x]) (paths A) then paths A else paths A ++ [pre ++ [x]]) <-> In q (paths A) \/ q = pre ++ [x]).
    { destruct (in_dec _ _ _) as [I|I]; [intuition (subst; auto)|]. rewrite in_app_iff. cbn. intuition. }
    rewrite G. split.
    + intros [[H| ->]|(l1 & s & l2 & -> & ->)]; auto.
      * right. exists [], x, l; auto.
      * right. exists (x :: l1), s, l2. split; auto. rewrite <- app_assoc. reflexivity.
    + intros [H|([|y l1] & s & l2 & E & ->)]; auto.
      * cbn in E. injection E as -> ->. auto.
      * cbn in E. injection E as -> ->. right. exists l1, s, l2. split; auto. rewrite <- app_assoc. reflexivity.
Qed.
Lemma paths_build : forall D q, In q (paths (build D)) <-> q <> [] /\ exists e, In e D /\ prefix q (fst e).
Proof.
  intros D q. unfold build.
  assert (G : forall D A, In q (paths (build_from A D)) <-> In q (paths A) \/ (q <> [] /\ exists e, In e D /\ prefix q (fst e))).
  { clear D. induction D as [|e D IH]; intros A; cbn [build_from fold_left].
    - split; auto. intros [H|(_ & e & [] & _)]; auto.
    - change (fold_left _ D ?X) with (build_from X D). rewrite IH, paths_ainsert. split.
      + intros [[H|(l1 & s & l2 & E & ->)]|(N & e' & I & P)]; auto.
        * right. split; [destruct l1; discriminate|]. exists e. split; [left; auto|]. exists l2. rewrite E. cbn [app]. rewrite <- app_assoc. auto.
        * right. split; auto. exists e'; split; auto. right; auto.
      + intros [H|(N & e' & [<-|I] & P)]; auto.
        * left. right. destruct P as (r & P). exists (removelast q), (lastsel q), r. cbn [app].
          rewrite <- (path_split q N). split; auto. rewrite P. rewrite (path_split q N) at 1. rewrite <- app_assoc. auto.
        * right. split; auto. exists e'; auto. }
  rewrite G. cbn. split; [intros [[]|H]; auto|auto].
Qed.
Lemma keys_build : forall D s, In s (keys (paths (build D))) <-> exists e, In e D /\ In s (fst e).
Proof.
  intros D s. rewrite keys_in, in_map_iff. split.
  - intros (p & <- & I). apply paths_build in I. destruct I as (N & e & Ie & r & E). exists e; split; auto.
    rewrite E. apply in_or_app; left. rewrite (path_split p N) at 2. apply in_or_app; right; left; auto.
  - intros (e & Ie & Is). apply in_split in Is. destruct Is as (l1 & l2 & E). exists (l1 ++ [s]). split; [apply lastsel_app|].
    apply paths_build. split; [destruct l1; discriminate|]. exists e; split; auto. exists l2. rewrite E, <- app_assoc. auto.
Qed.

Lemma fold_insert_represents : forall D t A, represents t A -> (forall e, In e D -> Forall nominal (fst e)) ->
  exists t', fold_res (fun t e => insert_path t 0 (fst e) (fst (snd e)) (snd (snd e))) D t = Ok t' /\ represents t' (build_from A D).
Proof.
  induction D as [|[l w] D IH]; intros t A R H; cbn [fold_res build_from fold_left]; [eauto|].
  destruct (insert_path_represents l t A [] 0 w R) as (t' & E & R' & _); auto.
  - apply (H (l, w)); left; auto.
  - cbn [fst snd]. rewrite E. cbn [bind]. apply IH; auto. intros e I; apply H; right; auto.
Qed.

(** * Generic facts *)
Lemma fold_res_app : forall A S (f : S -> A -> res S) l1 l2 s, fold_res f (l1 ++ l2) s = bind (fold_res f l1 s) (fold_res f l2).
Proof. induction l1 as [|x l1 IH]; intros; cbn [app fold_res bind]; auto. destruct (f s x); cbn [bind]; auto. Qed.
Lemma fold_res_map : forall A B S (f : S -> B -> res S) (g : A -> B) l s, fold_res f (map g l) s = fold_res (fun s x => f s (g x)) l s.
Proof. induction l as [|x l IH]; intros; cbn [map fold_res]; auto. destruct (f s (g x)); cbn [bind]; auto. Qed.
Lemma fold_res_ext : forall A S (f g : S -> A -> res S) l s, (forall s x, In x l -> f s x = g s x) -> fold_res f l s = fold_res g l s.
Proof.
  induction l as [|x l IH]; intros s H; cbn [fold_res]; auto. rewrite (H s x) by (left; auto).
  destruct (g s x); cbn [bind]; auto. apply IH. intros; apply H; right; auto.
Qed.
Lemma SS_NoDup : forall (lt : selector -> selector -> Prop) l, (forall x, ~ lt x x) -> StronglySorted lt l -> NoDup l.
Proof.
  intros lt l Irr S. induction S as [|x l S IH F]; constructor; auto.
  intros I. rewrite Forall_forall in F. apply (Irr x); auto.
Qed.

(** * Dictionaries *)
Section Dict.
  (** The selectors in play; [column+repr(value)] identifies them. *)
  Variable U : selector -> Prop.
  Hypothesis U_nominal : forall s, U s -> nominal s.
  Hypothesis U_key : forall s t, U s -> U t -> skey s = skey t -> s = t.

  Definition dict_of (f g o : selector -> Z) (ks : list selector) : fdict :=
    map (fun s => (skey s, FE s (f s) (g s) (o s))) ks.
  Lemma dict_get : forall f g o ks s, (forall x, In x ks -> U x) -> U s ->
    fdict_get (skey s) (dict_of f g o ks) = if in_dec selector_eq_dec s ks then Some (FE s (f s) (g s) (o s)) else None.
  Proof.
    induction ks as [|k ks IH]; intros s H Hs; cbn [dict_of map fdict_get].
    - destruct (in_dec _ _ _) as [[]|]; auto.
    - destruct (String.eqb (skey k) (skey s)) eqn:E.
      + apply String.eqb_eq in E. apply U_key in E; auto; [|apply H; left; auto]. subst k.
        destruct (in_dec _ _ _) as [|N]; auto. exfalso; apply N; left; auto.
      + fold (dict_of f g o ks). rewrite IH by (auto; intros; apply H; right; auto).
        destruct (in_dec selector_eq_dec s ks) as [I|I], (in_dec selector_eq_dec s (k :: ks)) as [I'|I']; auto.
        * exfalso; apply I'; right; auto.
        * destruct I' as [->|]; [|contradiction]. rewrite String.eqb_refl in E. discriminate.
  Qed.
  Lemma dict_set : forall f g o ks s e, NoDup ks -> (forall x, In x ks -> U x) -> In s ks -> U s ->
    fe_sel e = s ->
    fdict_set (skey s) e (dict_of f g o ks) =
    dict_of (fun x => if selector_eq_dec x s then fe_tp e else f x) (fun x => if selector_eq_dec x s then fe_fp e else g x)
            (fun x => if selector_eq_dec x s then fe_ord e else o x) ks.
  Proof.
    induction ks as [|k ks IH]; intros s e ND H I Hs He; [destruct I|].
    inversion ND; subst. cbn [dict_of map fdict_set]. destruct (String.eqb (skey k) (skey (fe_sel e))) eqn:E.
    - apply String.eqb_eq in E. apply U_key in E; auto; [|apply H; left; auto]. subst k.
      destruct (selector_eq_dec (fe_sel e) (fe_sel e)); [|contradiction]. destruct e as [es ea eb ec]; cbn in *. f_equal.
      apply map_ext_in. intros x Ix. destruct (selector_eq_dec x es) as [->|]; [contradiction|auto].
    - fold (dict_of f g o ks). destruct I as [->|I]; [rewrite String.eqb_refl in E; discriminate|].
      rewrite (IH (fe_sel e)) by (auto; intros; apply H; right; auto).
      destruct (selector_eq_dec k (fe_sel e)) as [->|]; [contradiction|]. reflexivity.
  Qed.
  Lemma dict_ext : forall f g o f' g' o' ks, (forall s, In s ks -> f s = f' s /\ g s = g' s /\ o s = o' s) ->
    dict_of f g o ks = dict_of f' g' o' ks.
  Proof. intros. apply map_ext_in. intros s I. destruct (H s I) as (-> & -> & ->). reflexivity. Qed.

  (** The dictionary of a sequence of bumps. *)
  Definition bsum (k : bool) (L : list (selector * (Z * Z))) (s : selector) : Z :=
    fold_right (fun e z => (if selector_eq_dec (fst e) s then pr k (snd e) else 0) + z)%Z 0%Z L.
  Lemma bsum_app : forall k L1 L2 s, bsum k (L1 ++ L2) s = (bsum k L1 s + bsum k L2 s)%Z.
  Proof.
    induction L1 as [|e L1 IH]; intros; [reflexivity|].
    cbn [app bsum fold_right]. fold (bsum k (L1 ++ L2) s) (bsum k L1 s). rewrite IH. lia.
  Qed.
  Definition bumped (L : list (selector * (Z * Z))) (acc : fdict * Z) : Prop :=
    exists ks ordf, NoDup ks /\ (forall s, In s ks <-> In s (map fst L)) /\
      (forall s, In s ks -> snd acc < ordf s)%Z /\
      (forall s t, In s ks -> In t ks -> ordf s = ordf t -> s = t) /\
      fst acc = dict_of (bsum true L) (bsum false L) ordf ks.
  Lemma bumped_nil : bumped [] ([], 0%Z).
  Proof. exists [], (fun _ => 0%Z). repeat split; cbn; auto; try constructor; try (intros; contradiction); tauto. Qed.
  Lemma bumped_step : forall L acc s w, (forall e, In e L -> U (fst e)) -> U s -> bumped L acc ->
    bumped (L ++ [(s, w)]) (dict_bump (fst w) (snd w) acc s).
  Proof.
    intros L [d o] s w HL Hs (ks & ordf & ND & K & O1 & O2 & E). cbn [fst snd] in *.
    assert (HU : forall x, In x ks -> U x). { intros x I. apply K in I. apply in_map_iff in I. destruct I as (e & <- & I); auto. }
    unfold dict_bump. rewrite E, dict_get by auto.
    assert (B : forall k x, bsum k (L ++ [(s, w)]) x = if selector_eq_dec x s then (bsum k L x + pr k w)%Z else bsum k L x).
    { intros k x. rewrite bsum_app. cbn [bsum fold_right fst snd]. destruct (selector_eq_dec s x), (selector_eq_dec x s); try congruence; lia. }
    destruct (in_dec selector_eq_dec s ks) as [I|I]; cbn [fst snd fe_sel fe_tp fe_fp fe_ord].
    - exists ks, ordf. repeat split; auto.
      + intros H. apply K in H. rewrite map_app; apply in_or_app; auto.
      + rewrite map_app, in_app_iff. intros [H|[<-|[]]]; [apply K|]; auto.
      + cbn [fst]. rewrite (dict_set _ _ _ _ s) by auto. cbn [fe_tp fe_fp fe_ord].
        apply dict_ext. intros x Ix. rewrite !B. destruct (selector_eq_dec x s) as [->|]; auto.
    - exists (ks ++ [s]), (fun x => if selector_eq_dec x s then o else ordf x). repeat split.
      + apply Permutation_NoDup with (l := s :: ks); [apply Permutation_cons_append|constructor; auto].
      + rewrite map_app, !in_app_iff. cbn. rewrite K. tauto.
      + rewrite map_app, !in_app_iff. cbn. rewrite K. tauto.
      + intros x Hx. cbn [snd]. destruct (selector_eq_dec x s); [lia|]. apply in_app_or in Hx. destruct Hx as [Hx|[->|[]]]; [|congruence].
        specialize (O1 _ Hx). lia.
      + intros x y Hx Hy Q. apply in_app_or in Hx, Hy. cbn in Hx, Hy.
        destruct (selector_eq_dec x s) as [->|Nx], (selector_eq_dec y s) as [->|Ny]; auto.
        * destruct Hy as [Hy|[->|[]]]; [|congruence]. specialize (O1 _ Hy). lia.
        * destruct Hx as [Hx|[->|[]]]; [|congruence]. specialize (O1 _ Hx). lia.
        * destruct Hx as [Hx|[->|[]]]; [|congruence]. destruct Hy as [Hy|[->|[]]]; [|congruence]. auto.
      + cbn [fst]. unfold dict_of. rewrite map_app. f_equal.
        * apply map_ext_in. intros x Ix. rewrite !B. destruct (selector_eq_dec x s) as [->|]; [contradiction|auto].
        * cbn [map]. rewrite !B. destruct (selector_eq_dec s s); [|contradiction].
          assert (Z0 : forall k, bsum k L s = 0%Z).
          { intros k. assert (X : ~ In s (map fst L)) by (rewrite <- K; auto). clear -X.
            induction L as [|[x v] L IH]; cbn [bsum fold_right fst]; auto. fold (bsum k L s).
            destruct (selector_eq_dec x s) as [->|]; [exfalso; apply X; left; auto|]. rewrite IH; auto. intros I; apply X; right; auto. }
          rewrite !Z0. reflexivity.
  Qed.
  Lemma bumped_fold : forall l L acc w, (forall e, In e L -> U (fst e)) -> (forall s, In s l -> U s) -> bumped L acc ->
    bumped (L ++ map (fun s => (s, w)) l) (fold_left (dict_bump (fst w) (snd w)) l acc).
  Proof.
    induction l as [|s l IH]; intros L acc w HL Hl B; cbn [map fold_left]; [rewrite app_nil_r; auto|].
    replace (L ++ (s, w) :: map (fun x => (x, w)) l) with ((L ++ [(s, w)]) ++ map (fun x => (x, w)) l) by (rewrite <- app_assoc; auto).
    apply IH.
    - intros e I. apply in_app_or in I. destruct I as [I|[<-|[]]]; auto. apply Hl; left; auto.
    - intros; apply Hl; right; auto.
    - apply bumped_step; auto. apply Hl; left; auto.
  Qed.

  (** * Sorting a transaction *)
  Definition ltd (n o : selector -> Z) (x y : selector) : Prop := (n y < n x \/ (n x = n y /\ o x < o y))%Z.
  Lemma insert_ord : forall (o : selector -> Z) x l, StronglySorted (fun a b => (o a < o b)%Z) l -> (forall y, In y l -> o y <> o x) ->
    StronglySorted (fun a b => (o a < o b)%Z) (insert_by (fun a b => (o a <? o b)%Z) x l).
  Proof.
    intros o x l S. induction S as [|y l S IH F]; intros H; cbn [insert_by]; [repeat constructor|].
    destruct (o y <? o x)%Z eqn:E.
    - apply Z.ltb_lt in E. constructor; [apply IH; intros; apply H; right; auto|].
      apply Forall_forall. intros z I. apply (Permutation_in z (Permutation_sym (insert_by_perm _ x l))) in I.
      destruct I as [<-|I]; auto. rewrite Forall_forall in F; auto.
    - apply Z.ltb_ge in E. assert (o x < o y)%Z by (specialize (H y (or_introl eq_refl)); lia).
      constructor; [constructor; auto|]. constructor; auto. rewrite Forall_forall in *. intros z I. specialize (F z I). lia.
  Qed.
  Lemma sort_ord : forall (o : selector -> Z) l, NoDup l -> (forall x y, In x l -> In y l -> o x = o y -> x = y) ->
    StronglySorted (fun a b => (o a < o b)%Z) (sort_by (fun a b => (o a <? o b)%Z) l).
  Proof.
    induction l as [|x l IH]; intros ND H; cbn [sort_by]; [constructor|]. inversion ND; subst.
    apply insert_ord; [apply IH; auto; intros; apply H; try right; auto|].
    intros y I E. apply sort_by_in in I. assert (y = x) by (apply H; [right|left|]; auto). subst; contradiction.
  Qed.
  Lemma sort_n : forall n o l, StronglySorted (fun a b => (o a < o b)%Z) l ->
    StronglySorted (ltd n o) (sort_by (fun a b => (n b <? n a)%Z) l).
  Proof.
    intros n o l S. induction S as [|x l S IH F]; cbn [sort_by]; [constructor|].
    assert (F' : Forall (fun b => (o x < o b)%Z) (sort_by (fun a b => (n b <? n a)%Z) l)).
    { rewrite Forall_forall in *. intros y I. apply sort_by_in in I. auto. }
    clear S F. revert IH F'. generalize (sort_by (fun a b => (n b <? n a)%Z) l) as m. intros m S F.
    induction S as [|y m S IH G]; cbn [insert_by]; [repeat constructor|]. inversion F; subst.
    destruct (n x <? n y)%Z eqn:E.
    - apply Z.ltb_lt in E. constructor; auto. apply Forall_forall. intros z I.
      apply (Permutation_in z (Permutation_sym (insert_by_perm _ x m))) in I. destruct I as [<-|I].
      + left; auto.
      + rewrite Forall_forall in G; auto.
    - apply Z.ltb_ge in E. constructor; [constructor; auto|]. assert (ltd n o x y) by (unfold ltd; lia).
      constructor; auto. rewrite Forall_forall in *. intros z I. specialize (G z I). unfold ltd in *. lia.
  Qed.
  Lemma ltd_irrefl : forall n o x, ~ ltd n o x x.
  Proof. unfold ltd; intros; lia. Qed.
  Lemma ltd_trans : forall n o x y z, ltd n o x y -> ltd n o y z -> ltd n o x z.
  Proof. unfold ltd; intros; lia. Qed.
  Lemma sort_transaction_spec : forall f g o ks l, (forall x, In x ks -> U x) ->
    (forall x y, In x ks -> In y ks -> o x = o y -> x = y) -> NoDup l -> incl l ks ->
    Permutation l (sort_transaction (dict_of f g o ks) l) /\
    StronglySorted (ltd (fun s => f s + g s)%Z o) (sort_transaction (dict_of f g o ks) l).
  Proof.
    intros f g o ks l HU O ND I. unfold sort_transaction.
    set (dn := dict_n (dict_of f g o ks)). set (dor := dict_ord (dict_of f g o ks)).
    assert (E1 : forall x, In x l -> dn x = (f x + g x)%Z).
    { intros x Ix. unfold dn, dict_n. rewrite dict_get by auto. destruct (in_dec _ _ _) as [|N]; [reflexivity|]. exfalso; apply N; auto. }
    assert (E2 : forall x, In x l -> dor x = o x).
    { intros x Ix. unfold dor, dict_ord. rewrite dict_get by auto. destruct (in_dec _ _ _) as [|N]; [reflexivity|]. exfalso; apply N; auto. }
    split.
    - etransitivity; [apply sort_by_perm|apply sort_by_perm].
    - assert (S1 : StronglySorted (fun a b => (dor a < dor b)%Z) (sort_by (fun x y => (dor x <? dor y)%Z) l)).
      { apply sort_ord; auto. intros x y Ix Iy Q. rewrite !E2 in Q by auto. apply O; auto. }
      apply (sort_n dn) in S1.
      assert (M : forall x, In x (sort_by (fun x y => (dn y <? dn x)%Z) (sort_by (fun x y => (dor x <? dor y)%Z) l)) -> In x l).
      { intros x Hx. apply sort_by_in, sort_by_in in Hx. auto. }
      revert S1 M. generalize (sort_by (fun x y => (dn y <? dn x)%Z) (sort_by (fun x y => (dor x <? dor y)%Z) l)) as m.
      intros m S. induction S as [|x m S IH F]; intros M; constructor.
      + apply IH; intros; apply M; right; auto.
      + rewrite Forall_forall in *. intros y Iy. specialize (F y Iy). unfold ltd in *.
        rewrite !E1, !E2 in F by (apply M; auto using in_eq, in_cons). exact F.
  Qed.
  Lemma valid_selectors_spec : forall f g o ks p, (forall x, In x ks -> U x) -> (forall x, In x p -> U x) ->
    valid_selectors (dict_of f g o ks) p = filter (fun s => inb s ks) p.
  Proof.
    induction p as [|s p IH]; intros HU Hp; cbn [valid_selectors filter]; auto.
    rewrite dict_get by (auto; apply Hp; left; auto). rewrite IH by (auto; intros; apply Hp; right; auto).
    destruct (in_dec selector_eq_dec s ks) as [I|I].
    - apply inb_true in I. rewrite I. reflexivity.
    - apply inb_false in I. rewrite I. reflexivity.
  Qed.
  Lemma prune_dict_spec : forall ok f g o ks, prune_dict ok (dict_of f g o ks) = dict_of f g o (filter (fun s => ok (f s) (g s)) ks).
  Proof.
    induction ks as [|s ks IH]; cbn [dict_of map prune_dict filter snd fe_tp fe_fp]; auto.
    destruct (ok (f s) (g s)); cbn [map]; unfold dict_of in *; unfold prune_dict in IH; rewrite IH; reflexivity.
  Qed.

  (** * The conditional tree *)
  Definition proj_base (s : selector) (A : trie) : db :=
    map (fun e => (removelast (fst e), snd e)) (filter (fun e => if selector_eq_dec (lastsel (fst e)) s then true else false) A).
  Lemma asum_proj_base : forall k Q s A, asum k Q (proj_base s A) = asum k (ends s Q) A.
  Proof.
    induction A as [|[p w] A IH]; cbn [proj_base filter map asum]; auto.
    unfold ends at 1. cbn [fst snd]. destruct (selector_eq_dec (lastsel p) s); cbn [map asum fst snd].
    - f_equal. exact IH.
    - cbn. exact IH.
  Qed.

  (** Walking up *)
  Lemma path_up_spec : forall t A, represents t A -> forall fuel p c, (p = [] \/ In p (paths A)) -> pid (paths A) p = Some c ->
    length p <= fuel -> path_up fuel (t_nodes t) (Some c) = Ok (rev p).
  Proof.
    intros t A R. pose proof R as ((ND & NE & PC & F) & L & _ & N & _).
    induction fuel as [|f IH]; intros p c Ip E Hf.
    - destruct p; [|cbn in Hf; lia]. cbn in E. injection E as <-. reflexivity.
    - destruct p as [|x p0] eqn:Ep. { cbn in E. injection E as <-. reflexivity. }
      destruct Ip as [Ip|Ip]; [discriminate|]. rewrite <- Ep in *. assert (Np : p <> []) by (rewrite Ep; discriminate).
      destruct (In_nth_error _ _ Ip) as [i Hi].
      pose proof (pid_node _ _ _ ND Np Hi) as E2. rewrite E2 in E. injection E as <-.
      unfold paths in Hi. rewrite nth_error_map in Hi. destruct (nth_error A i) as [[q v]|] eqn:Hq; [|discriminate].
      cbn in Hi. injection Hi as ->. cbn [path_up]. rewrite (N _ _ _ Hq). cbn [nd_parent node_of nd_sel].
      assert (Ir : removelast p = [] \/ In (removelast p) (paths A)).
      { apply (PC _ (lastsel p)). rewrite <- path_split; auto. }
      assert (exists c', pid (paths A) (removelast p) = Some c') as [c' Ec'].
      { destruct Ir as [-> |Ir]; [exists 0; auto|]. destruct (In_nth_error _ _ Ir) as [j Hj]. exists (S j). apply pid_node; auto. intros X; rewrite X in Ir; contradiction. }
      rewrite Ec'. rewrite (IH (removelast p) c' Ir Ec').
      + cbn [bind]. rewrite (path_split p Np) at 3. rewrite rev_app_distr. reflexivity.
      + rewrite (path_split p Np), app_length in Hf. cbn in Hf. lia.
  Qed.
  (** Horizontal lists *)
  Lemma horizontal_spec : forall t A s, represents t A -> forall l l1 fuel, ids (paths A) s = l1 ++ l -> length l <= fuel ->
    horizontal fuel (t_nodes t) (hd_error l) = Ok l.
  Proof.
    intros t A s R. pose proof R as (_ & _ & _ & N & _).
    induction l as [|c l IH]; intros l1 fuel E Hf; [destruct fuel; reflexivity|].
    destruct fuel as [|f]; [cbn in Hf; lia|]. cbn [hd_error horizontal].
    assert (Ic : In c (ids (paths A) s)) by (rewrite E; apply in_or_app; right; left; auto).
    apply ids_from_in in Ic. destruct Ic as (i & p & -> & Hi & Hl).
    unfold paths in Hi. rewrite nth_error_map in Hi. destruct (nth_error A i) as [[q v]|] eqn:Hq; [|discriminate]. cbn in Hi; injection Hi as ->.
    cbn [Nat.add]. rewrite (N _ _ _ Hq). cbn [node_of nd_link]. rewrite Hl.
    assert (link (paths A) s (S i) = hd_error l) as ->.
    { unfold link. pose proof (ids_from_sorted (paths A) 1 s) as SS. fold (ids (paths A) s) in SS. rewrite E in SS |- *.
      clear -SS. induction l1 as [|y l1 IH]; cbn [app find] in *.
      - inversion SS as [|? ? SS' F]; subst. cbn [find Nat.add]. rewrite Nat.ltb_irrefl. destruct l as [|z l]; auto.
        inversion F; subst. cbn [find hd_error]. replace (S i <? z) with true by (symmetry; apply Nat.ltb_lt; lia). auto.
      - inversion SS as [|? ? SS' F]; subst. rewrite Forall_forall in F. assert (y < 1 + i) by (apply F, in_or_app; right; left; auto).
        replace (S i <? y) with false by (symmetry; apply Nat.ltb_ge; lia). auto. }
    rewrite (IH (l1 ++ [1 + i]) f); [reflexivity| rewrite <- app_assoc; auto | cbn in Hf; lia].
  Qed.
End Dict.
