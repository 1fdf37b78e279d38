(** Proofs about the texts of FP-trees (C80). *)
From Coq Require Import String ZArith List Bool Lia Sorted.
From Verif Require Import FPGrowthProofs3 SDMapProofs FPTreeText TreeTextSpec.
Import ListNotations.
Open Scope list_scope.
Open Scope nat_scope.

Definition children (h : heap) (p : nat) : list nat := match nth_error h p with Some n => map snd (nd_childs n) | None => [] end.

Lemma children_in : forall h p c, In c (children h p) <-> child_of h p c.
Proof.
  intros. unfold children, child_of. destruct (nth_error h p) as [n|].
  - rewrite in_map_iff. split.
    + intros ([k c'] & <- & I). exists n, k. auto.
    + intros (n' & k & E & I). injection E as <-. exists (k, c). auto.
  - split; [intros []|]. intros (n & k & E & _). discriminate.
Qed.

(** A heap that is a forest, with a level for each node. *)
Record forest (h : heap) (dep : nat -> nat) : Prop := {
  f_level : forall p c, child_of h p c -> c < length h /\ dep c = S (dep p);
  f_one : forall p q c, child_of h p c -> child_of h q c -> p = q;
  f_nodup : forall p, NoDup (children h p);
  f_bound : forall i, i < length h -> dep i < length h }.

Lemma flat_map_split : forall {A B} (f : A -> list B) l a x b, flat_map f l = a ++ x :: b ->
  exists l1 c l2 a' b', l = l1 ++ c :: l2 /\ a = flat_map f l1 ++ a' /\ f c = a' ++ x :: b'.
Proof.
  intros A B f. induction l as [|y l IH]; intros a x b E; cbn [flat_map] in E; [destruct a; discriminate|].
  destruct (Nat.lt_ge_cases (length a) (length (f y))) as [L|L].
  - exists [], y, l, a. assert (E2 : f y = firstn (length (f y)) (a ++ x :: b)). { rewrite <- E. rewrite firstn_app, Nat.sub_diag, firstn_all. cbn [firstn]. rewrite app_nil_r. auto. }
    rewrite firstn_app in E2. rewrite firstn_all2 in E2 by lia.
    destruct (length (f y) - length a) as [|m] eqn:Em; [lia|]. cbn [firstn] in E2. exists (firstn m b). repeat split; auto.
  - assert (E2 : a = f y ++ skipn (length (f y)) a).
    { rewrite <- (firstn_skipn (length (f y)) a) at 1. f_equal.
      assert (E3 : firstn (length (f y)) (f y ++ flat_map f l) = firstn (length (f y)) (a ++ x :: b)) by (rewrite E; auto).
      rewrite firstn_app, Nat.sub_diag, firstn_all in E3. cbn [firstn] in E3. rewrite app_nil_r in E3. rewrite firstn_app in E3.
      replace (length (f y) - length a) with 0 in E3 by lia. cbn [firstn] in E3. rewrite app_nil_r in E3. auto. }
    rewrite E2, <- app_assoc in E. apply app_inv_head in E. destruct (IH _ _ _ E) as (l1 & c & l2 & a' & b' & -> & E4 & E5).
    exists (y :: l1), c, l2, a', b'. split; [auto|]. split; [|auto]. cbn [flat_map]. rewrite <- app_assoc, <- E4. auto.
Qed.
Lemma flat_map_nil : forall {A B} (f : A -> list B) l, (forall x, In x l -> f x = []) -> flat_map f l = [].
Proof. induction l as [|x l IH]; intros H; cbn; auto. rewrite H by (left; auto). apply IH. intros; apply H; right; auto. Qed.
Lemma flat_map_filter : forall {A B} (p : B -> bool) (f : A -> list B) l, filter p (flat_map f l) = flat_map (fun x => filter p (f x)) l.
Proof. induction l as [|x l IH]; cbn; auto. rewrite filter_app, IH. auto. Qed.
Lemma map_flat_map : forall {A B C} (g : B -> C) (f : A -> list B) l, map g (flat_map f l) = flat_map (fun x => map g (f x)) l.
Proof. induction l as [|x l IH]; cbn; auto. rewrite map_app, IH. auto. Qed.
Lemma flat_map_single : forall {A} (l : list A), flat_map (fun x => [x]) l = l.
Proof. induction l; cbn; congruence. Qed.
Lemma flat_map_ext_in : forall {A B} (f g : A -> list B) l, (forall x, In x l -> f x = g x) -> flat_map f l = flat_map g l.
Proof. induction l as [|x l IH]; intros H; cbn; auto. rewrite H by (left; auto). f_equal. apply IH. intros; apply H; right; auto. Qed.
Lemma nodup_app_intro : forall {A} (a b : list A), NoDup a -> NoDup b -> (forall x, In x a -> ~ In x b) -> NoDup (a ++ b).
Proof.
  induction a as [|x a IH]; intros b Ha Hb D; cbn; auto. inversion Ha as [|? ? N1 N2]; subst. constructor.
  - rewrite in_app_iff. intros [I|I]; auto. apply (D x); [left; auto|auto].
  - apply IH; auto. intros y Iy. apply D; right; auto.
Qed.
Lemma nodup_flat_map : forall {A B} (f : A -> list B) l, NoDup l -> (forall x, In x l -> NoDup (f x)) ->
  (forall x y z, In x l -> In y l -> In z (f x) -> In z (f y) -> x = y) -> NoDup (flat_map f l).
Proof.
  induction l as [|x l IH]; intros N F D; cbn [flat_map]; [constructor|]. inversion N as [|? ? N1 N2]; subst.
  apply nodup_app_intro.
  - apply F; left; auto.
  - apply IH; auto.
    + intros; apply F; right; auto.
    + intros a b z Ia Ib; apply D; right; auto.
  - intros z I1 I2. apply in_flat_map in I2. destruct I2 as (y & Iy & Iz).
    assert (x = y) as -> by (apply (D x y z); auto; [left|right]; auto). auto.
Qed.

(** The nodes in the order in which they are printed, with their depths. *)
Fixpoint preorder (fuel : nat) (h : heap) (i : nat) (k : Z) : list (nat * Z) :=
  match fuel with
  | O => []
  | S f => (i, k) :: flat_map (fun c => preorder f h c (k + 1)) (children h i)
  end.

Section Forest.
  Variables (h : heap) (dep : nat -> nat).
  Hypothesis W : forest h dep.

  Lemma below_level : forall i j, below h i j -> dep i <= dep j.
  Proof. intros i j H. induction H as [|p c H IH C]; auto. apply (f_level _ _ W) in C. lia. Qed.
  Lemma below_bound : forall i j, i < length h -> below h i j -> j < length h.
  Proof. intros i j Hi H. destruct H as [|p c H C]; auto. apply (f_level _ _ W) in C. tauto. Qed.
  Lemma below_trans : forall i j k, below h i j -> below h j k -> below h i k.
  Proof. intros i j k H1 H2. induction H2; auto. econstructor; eauto. Qed.
  Lemma below_first : forall i j, below h i j -> j = i \/ exists c, child_of h i c /\ below h c j.
  Proof.
    intros i j H. induction H as [|p c H IH C]; auto. right. destruct IH as [-> |(d & D1 & D2)].
    - exists c. split; [auto|constructor].
    - exists d. split; auto. econstructor; eauto.
  Qed.
  Lemma below_same : forall i j, below h i j -> forall i', below h i' j -> dep i = dep i' -> i = i'.
  Proof.
    intros i j H. induction H as [|p c H IH C]; intros i' H' E.
    - destruct H' as [|p c H' C]; auto. pose proof (below_level _ _ H'). apply (f_level _ _ W) in C. lia.
    - destruct H' as [|q c H' C'].
      + pose proof (below_level _ _ H). apply (f_level _ _ W) in C. lia.
      + apply IH; auto. rewrite (f_one _ _ W _ _ _ C C'). auto.
  Qed.

  Lemma preorder_in : forall f i k j d, In (j, d) (preorder f h i k) -> below h i j /\ d = (k + Z.of_nat (dep j) - Z.of_nat (dep i))%Z.
  Proof.
    induction f as [|f IH]; intros i k j d I; [destruct I|]. cbn [preorder] in I. destruct I as [E|I].
    - injection E as <- <-. split; [constructor|lia].
    - apply in_flat_map in I. destruct I as (c & Ic & I). apply children_in in Ic. destruct (IH _ _ _ _ I) as [B ->].
      split; [|apply (f_level _ _ W) in Ic; lia]. eapply below_trans; [|exact B]. econstructor; [constructor|auto].
  Qed.
  Lemma preorder_head : forall f i k, i < length h -> length h <= f + dep i -> exists l, preorder f h i k = (i, k) :: l /\ forall j d, In (j, d) l -> dep i < dep j.
  Proof.
    intros [|f] i k Hi Hf; [pose proof (f_bound _ _ W i Hi); lia|]. eexists; split; [reflexivity|].
    intros j d I. apply in_flat_map in I. destruct I as (c & Ic & I). apply children_in in Ic. apply preorder_in in I. destruct I as [B _].
    apply below_level in B. apply (f_level _ _ W) in Ic. lia.
  Qed.
  Lemma preorder_all : forall f i k j, i < length h -> length h <= f + dep i -> below h i j -> In j (map fst (preorder f h i k)).
  Proof.
    induction f as [|f IH]; intros i k j Hi Hf B; [pose proof (f_bound _ _ W i Hi); lia|].
    cbn [preorder map fst]. apply below_first in B. destruct B as [-> |(c & C & B)]; [left; auto|right].
    rewrite map_flat_map. apply in_flat_map. exists c. split; [apply children_in; auto|]. pose proof (f_level _ _ W _ _ C). apply IH; auto; lia.
  Qed.
  Lemma preorder_fst : forall f i k j, In j (map fst (preorder f h i k)) -> below h i j.
  Proof. intros f i k j I. apply in_map_iff in I. destruct I as ([j' d] & <- & I). apply preorder_in in I. tauto. Qed.
  Lemma preorder_nodup : forall f i k, NoDup (map fst (preorder f h i k)).
  Proof.
    induction f as [|f IH]; intros i k; cbn [preorder map fst]; constructor; rewrite ?map_flat_map.
    - intros I. apply in_flat_map in I. destruct I as (c & Ic & I). apply children_in in Ic. apply preorder_fst in I.
      apply below_level in I. apply (f_level _ _ W) in Ic. lia.
    - apply nodup_flat_map; auto.
      + apply (f_nodup _ _ W).
      + intros x y z Ix Iy I1 I2. apply children_in in Ix, Iy. apply preorder_fst in I1, I2. apply (f_level _ _ W) in Ix, Iy.
        eapply below_same; eauto. lia.
  Qed.
  Lemma preorder_nearest : forall f i k a j d b, preorder f h i k = a ++ (j, d) :: b -> a <> [] ->
    exists a1 p a2, a = a1 ++ (p, d - 1)%Z :: a2 /\ child_of h p j /\ Forall (fun x => (d <= snd x)%Z) a2.
  Proof.
    induction f as [|f IH]; intros i k a j d b E Na; [destruct a; discriminate|]. cbn [preorder] in E.
    destruct a as [|x a]; [contradiction|]. cbn [app] in E. injection E as <- E.
    destruct (flat_map_split _ _ _ _ _ E) as (l1 & c & l2 & a' & b' & El & Ea & Ec).
    assert (C : child_of h i c) by (apply children_in; rewrite El; apply in_or_app; right; left; auto).
    destruct a' as [|y a'].
    - assert ((j, d) = (c, k + 1)%Z) as X. { destruct f; cbn [preorder] in Ec; [discriminate|]. cbn [app] in Ec. congruence. }
      injection X as -> ->. exists [], i, a. cbn [app]. split; [f_equal; f_equal; lia|]. split; auto.
      rewrite Ea, app_nil_r. apply Forall_forall. intros [j d] I. apply in_flat_map in I. destruct I as (e & Ie & I).
      assert (C' : child_of h i e) by (apply children_in; rewrite El; apply in_or_app; left; auto).
      apply preorder_in in I. destruct I as [B ->]. cbn [snd]. apply below_level in B. lia.
    - destruct (IH _ _ (y :: a') j d b' Ec ltac:(discriminate)) as (a1 & p & a2 & Ea' & Cp & F).
      exists ((i, k) :: flat_map (fun c => preorder f h c (k + 1)) l1 ++ a1), p, a2. split; [|auto].
      rewrite Ea, Ea', <- app_comm_cons, <- app_assoc. auto.
  Qed.

  Definition is_child (p j : nat) : bool := existsb (Nat.eqb j) (children h p).
  Lemma is_child_iff : forall p j, is_child p j = true <-> child_of h p j.
  Proof.
    intros. unfold is_child. rewrite existsb_exists, <- children_in. split.
    - intros (x & I & E). apply Nat.eqb_eq in E. subst; auto.
    - intros I. exists j. split; [auto|apply Nat.eqb_refl].
  Qed.
  Lemma filter_none : forall {A} (p : A -> bool) l, (forall x, In x l -> p x = false) -> filter p l = [].
  Proof. induction l as [|x l IH]; intros H; cbn; auto. rewrite H by (left; auto). apply IH. intros; apply H; right; auto. Qed.
  Lemma preorder_siblings : forall f i k p, i < length h -> length h <= f + dep i -> below h i p ->
    filter (is_child p) (map fst (preorder f h i k)) = children h p.
  Proof.
    induction f as [|f IH]; intros i k p Hi Hf B; [pose proof (f_bound _ _ W i Hi); lia|]. cbn [preorder map fst filter].
    assert (H0 : is_child p i = false).
    { destruct (is_child p i) eqn:E; auto. apply is_child_iff in E. apply (f_level _ _ W) in E. apply below_level in B. lia. }
    rewrite H0, map_flat_map, flat_map_filter. apply below_first in B. destruct B as [-> |(c0 & C0 & B)].
    - rewrite (flat_map_ext_in _ (fun c => [c])); [apply flat_map_single|]. intros c Ic. pose proof Ic as C. apply children_in in C.
      pose proof (f_level _ _ W _ _ C) as [L1 L2]. destruct (preorder_head f c (k + 1) L1 ltac:(lia)) as (l & -> & Hl). cbn [map fst filter].
      rewrite (proj2 (is_child_iff i c) C). f_equal. apply filter_none. intros j Ij. apply in_map_iff in Ij. destruct Ij as ([j' d] & <- & Ij).
      cbn [fst]. destruct (is_child i j') eqn:E; auto. apply is_child_iff in E. apply (f_level _ _ W) in E. apply Hl in Ij. lia.
    - pose proof (proj2 (children_in h i c0) C0) as Ic0. apply in_split in Ic0. destruct Ic0 as (l1 & l2 & El).
      pose proof (f_nodup _ _ W i) as ND. pose proof (f_level _ _ W _ _ C0) as [L1 L2].
      assert (G : forall c, In c (children h i) -> c <> c0 -> filter (is_child p) (map fst (preorder f h c (k + 1))) = []).
      { intros c Ic N. apply children_in in Ic. apply filter_none. intros j Ij. destruct (is_child p j) eqn:E; auto. exfalso.
        apply is_child_iff in E. apply preorder_fst in Ij. apply N. apply (f_level _ _ W) in Ic. eapply below_same; [exact Ij| |lia]. econstructor; eauto. }
      rewrite El in *. rewrite flat_map_app. cbn [flat_map]. apply NoDup_remove_2 in ND. rewrite !flat_map_nil, app_nil_r; cbn [app].
      + apply IH; auto. lia.
      + intros c Ic. apply G; [apply in_or_app; right; right; auto|]. intros ->. apply ND, in_or_app; auto.
      + intros c Ic. apply G; [apply in_or_app; left; auto|]. intros ->. apply ND, in_or_app; auto.
  Qed.
End Forest.

(** * The heaps of FP-trees are forests *)
Definition path_of (A : trie) (i : nat) : list selector := match i with O => [] | S j => nth j (paths A) [] end.
Section Rep.
  Variables (t : fptree) (A : trie).
  Hypothesis R : represents t A.
  Let h := t_nodes t.
  Let dep (i : nat) := length (path_of A i).

  Lemma len_paths : length (t_nodes t) = S (length (paths A)).
  Proof. destruct R as (_ & L & _). rewrite L. unfold paths. rewrite map_length. auto. Qed.
  Lemma path_in : forall i, i < length (t_nodes t) -> path_of A i = [] /\ i = 0 \/ In (path_of A i) (paths A) /\ path_of A i <> [] /\ exists j, i = S j /\ nth_error (paths A) j = Some (path_of A i).
  Proof.
    intros [|j] L; [left; auto|right]. rewrite len_paths in L. cbn [path_of].
    assert (I : In (nth j (paths A) []) (paths A)) by (apply nth_In; lia). split; auto. split.
    - destruct R as ((_ & NE & _) & _). intros E. rewrite E in I. auto.
    - exists j. split; auto. apply nth_error_nth'. lia.
  Qed.
  Lemma node_childs : forall i n, nth_error (t_nodes t) i = Some n -> nd_childs n = childs_from 1 (paths A) (path_of A i).
  Proof.
    intros [|j] n E; destruct R as (V & L & (r & R1 & R2) & N & _).
    - rewrite R1 in E. injection E as <-. auto.
    - assert (Lj : j < length A) by (assert (X : nth_error (t_nodes t) (S j) <> None) by congruence; apply nth_error_Some in X; lia).
      destruct (nth_error A j) as [[q v]|] eqn:Eq; [|apply nth_error_None in Eq; lia]. rewrite (N _ _ _ Eq) in E. injection E as <-.
      cbn [node_of nd_childs path_of]. f_equal. unfold paths. rewrite (nth_indep _ [] (fst ([] : path, (0%Z, 0%Z)))) by (rewrite map_length; auto).
      rewrite map_nth. rewrite (nth_error_nth _ _ _ Eq). auto.
  Qed.
  Lemma child_paths : forall p c, child_of (t_nodes t) p c <-> p < length (t_nodes t) /\ exists i q, c = S i /\ nth_error (paths A) i = Some q /\ removelast q = path_of A p.
  Proof.
    intros p c. unfold child_of. split.
    - intros (n & k & E & I). split; [apply nth_error_Some; congruence|]. rewrite (node_childs _ _ E) in I. apply childs_in in I.
      destruct I as (i & q & -> & H1 & H2 & _). exists i, q. auto.
    - intros (L & i & q & -> & H1 & H2). destruct (nth_error (t_nodes t) p) as [n|] eqn:E; [|apply nth_error_None in E; lia].
      exists n, (lastsel q). split; auto. rewrite (node_childs _ _ E). apply childs_in. exists i, q. auto.
  Qed.
  Lemma path_inj : forall i j, i < length (t_nodes t) -> j < length (t_nodes t) -> path_of A i = path_of A j -> i = j.
  Proof.
    intros i j Hi Hj E. pose proof R as ((ND & NE & _) & _).
    destruct (path_in i Hi) as [[Ei ->]|(Ii & Ni & i' & -> & Ei)], (path_in j Hj) as [[Ej ->]|(Ij & Nj & j' & -> & Ej)]; auto; try congruence.
    f_equal. rewrite E in Ei. apply (proj1 (NoDup_nth_error (paths A)) ND); [apply nth_error_Some; congruence|congruence].
  Qed.
  Lemma childs_ascending : forall ps k p, StronglySorted lt (map snd (childs_from k ps p)) /\ Forall (fun c => k <= c) (map snd (childs_from k ps p)).
  Proof.
    induction ps as [|q ps IH]; intros k p; cbn [childs_from map]; [split; constructor|]. destruct (IH (S k) p) as [S1 S2].
    destruct (path_eq_dec (removelast q) p); cbn [map snd]; split; auto.
    - constructor; auto.
    - constructor; auto. eapply Forall_impl; [|exact S2]. intros; cbn in *; lia.
    - eapply Forall_impl; [|exact S2]. intros; cbn in *; lia.
  Qed.
  Lemma rep_forest : forest (t_nodes t) dep.
  Proof.
    pose proof R as (V & _). pose proof V as (ND & NE & PC & F). constructor.
    - intros p c H. apply child_paths in H. destruct H as (L & i & q & -> & H1 & H2). rewrite len_paths.
      assert (Li : i < length (paths A)) by (apply nth_error_Some; congruence). split; [lia|]. unfold dep. cbn [path_of]. rewrite (nth_error_nth _ _ _ H1).
      assert (Nq : q <> []) by (intros ->; apply NE; eapply nth_error_In; eauto).
      rewrite (path_split q Nq), app_length, H2. cbn. lia.
    - intros p q c H1 H2. apply child_paths in H1, H2. destruct H1 as (L1 & i & p' & -> & H1 & E1), H2 as (L2 & j & q' & Ej & H2 & E2).
      injection Ej as <-. apply path_inj; auto. congruence.
    - intros p. unfold children. destruct (nth_error (t_nodes t) p) as [n|] eqn:E; [|constructor]. rewrite (node_childs _ _ E).
      destruct (childs_ascending (paths A) 1 (path_of A p)) as [S1 _]. clear -S1. induction S1 as [|x l S1 IH F]; constructor; auto.
      intros I. rewrite Forall_forall in F. apply F in I. lia.
    - intros i Hi. unfold dep. rewrite len_paths. apply Nat.lt_succ_r. apply paths_length; auto.
      destruct (path_in i Hi) as [[-> _]|(I & _)]; auto.
  Qed.
  Lemma all_below : forall i, i < length (t_nodes t) -> below (t_nodes t) 0 i.
  Proof.
    intros i. remember (length (path_of A i)) as m eqn:Em. revert i Em. induction m as [|m IH]; intros i Em Hi.
    - destruct (path_in i Hi) as [[_ ->]|(_ & N & _)]; [constructor|]. destruct (path_of A i); [contradiction|discriminate].
    - destruct (path_in i Hi) as [[E _]|(I & N & j & -> & E)]; [rewrite E in Em; discriminate|].
      pose proof R as ((ND & NE & PC & F) & _). rewrite (path_split _ N) in I. apply PC in I.
      assert (exists p, p < length (t_nodes t) /\ path_of A p = removelast (path_of A (S j))) as (p & Lp & Ep).
      { destruct I as [I|I]; [exists 0; rewrite len_paths, I; split; [lia|auto]|]. destruct (In_nth_error _ _ I) as [k Ek].
        exists (S k). rewrite len_paths. split; [|cbn [path_of]; apply nth_error_nth; auto].
        assert (k < length (paths A)) by (apply nth_error_Some; congruence). lia. }
      econstructor; [apply (IH p); auto|].
      + rewrite Ep. pose proof (f_equal (@length _) (path_split _ N)) as EL. rewrite app_length in EL. cbn [length] in EL. lia.
      + apply child_paths. split; auto. exists j, (path_of A (S j)). auto.
  Qed.
End Rep.

(** * The texts *)
Open Scope string_scope.
Definition text_of (ls : list string) : string := fold_right append "" ls.
Lemma app_assoc_str : forall a b c : string, (a ++ b) ++ c = a ++ b ++ c.
Proof. induction a as [|x a IH]; intros; cbn; [auto|rewrite IH; auto]. Qed.
Lemma app_nil_str : forall a : string, a ++ "" = a.
Proof. induction a as [|x a IH]; cbn; [auto|rewrite IH; auto]. Qed.
Lemma text_of_app : forall a b, text_of (a ++ b)%list = text_of a ++ text_of b.
Proof. induction a as [|x a IH]; intros b; cbn; auto. rewrite IH, app_assoc_str. auto. Qed.
Section Texts.
  Variable addr : nat -> Z.
  (** One line of the printed tree. *)
  Definition tree_line (h : heap) (e : nat * Z) : string :=
    (if (0 <? snd e)%Z then times (Z.to_nat (snd e - 1)) "    " ++ "|--- " else "")
    ++ match nth_error h (fst e) with Some n => node_str addr (fst e) n | None => "" end ++ newline.
  Lemma tree_text : forall h dep, forest h dep -> forall f i k, (i < length h)%nat -> (length h <= f + dep i)%nat ->
    tree_as_str addr f h i k = Ok (text_of (map (tree_line h) (preorder f h i k))).
  Proof.
    intros h dep W. induction f as [|f IH]; intros i k Hi Hf; [pose proof (f_bound _ _ W i Hi); lia|].
    cbn [tree_as_str preorder map]. destruct (nth_error h i) as [n|] eqn:En; [|apply nth_error_None in En; lia].
    cbn zeta. unfold text_of. cbn [fold_right]. fold (text_of (map (tree_line h) (flat_map (fun c => preorder f h c (k + 1)) (children h i)))).
    unfold tree_line at 1. cbn [fst snd]. rewrite En. rewrite Z.gtb_ltb.
    set (pre := (_ ++ node_str addr i n ++ newline)%string). clearbody pre.
    assert (EC : children h i = map snd (nd_childs n)) by (unfold children; rewrite En; auto). rewrite EC.
    assert (HC : forall k c, In (k, c) (nd_childs n) -> child_of h i c) by (intros k' c I; exists n, k'; auto). clear EC.
    revert pre. induction (nd_childs n) as [|[s c] l IHl]; intros pre; cbn [fold_res map flat_map snd]; [rewrite app_nil_str; auto|].
    assert (C : child_of h i c) by (apply (HC s); left; auto). destruct (f_level _ _ W _ _ C) as [L1 L2].
    rewrite IH by lia. cbn [bind]. rewrite IHl by (intros; eapply HC; right; eauto). f_equal.
    rewrite map_app, text_of_app, app_assoc_str. auto.
  Qed.
End Texts.
