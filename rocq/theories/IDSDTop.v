(** Facts about the list of the best subgroups of IDSD. *)
From Verif Require Import IDSDModel OrderFacts Properties_Cred.
From Coq Require Import QArith Lia Sorted Permutation Lqa.
Open Scope string_scope.
Open Scope list_scope.
Open Scope nat_scope.

Definition knan (k : nat * xnum) : bool := is_nan (snd k).
Lemma xlt_irrefl : forall a, xlt a a = false.
Proof. intros [| |x|]; auto. cbn. apply negb_false_iff. apply Qle_bool_iff. lra. Qed.
Lemma xlt_asym : forall a b, xlt a b = true -> xlt b a = false.
Proof. intros [| |x|] [| |y|] H; auto; try discriminate. cbn in *. apply negb_true_iff in H. apply negb_false_iff. apply Qle_bool_iff. apply not_true_iff_false in H. rewrite Qle_bool_iff in H. lra. Qed.
Lemma xlt_nan : forall a b, is_nan a = false -> is_nan b = false -> (xlt a b = false <-> xle b a = true).
Proof.
  intros a b Ha Hb. split; [apply not_xlt; auto|]. intros H. destruct (xlt a b) eqn:E; auto. exfalso.
  destruct a as [| |x|], b as [| |y|]; try discriminate. apply xle_fin in H. cbn in E. apply negb_true_iff in E. apply not_true_iff_false in E. rewrite Qle_bool_iff in E. lra.
Qed.
Lemma xle_antisym_eq : forall a b, xle a b = true -> xle b a = true -> xeq a b = true.
Proof. intros [| |x|] [| |y|] H1 H2; auto; try discriminate. apply xle_fin in H1, H2. cbn. apply Qeq_eq_bool. lra. Qed.
Lemma key_asym : forall a b, key_lt a b = true -> key_lt b a = false.
Proof.
  intros [r1 o1] [r2 o2]. unfold key_lt. cbn [fst snd]. rewrite orb_true_iff, andb_true_iff, orb_false_iff, andb_false_iff. intros [H|[H1 H2]].
  - apply Nat.ltb_lt in H. split; [apply Nat.ltb_ge; lia|left; apply Nat.eqb_neq; lia].
  - apply Nat.eqb_eq in H1. subst. split; [apply Nat.ltb_ge; lia|right; apply xlt_asym; auto].
Qed.
Lemma key_irrefl : forall a, key_lt a a = false.
Proof. intros a. destruct (key_lt a a) eqn:E; auto. rewrite <- E. apply key_asym; auto. Qed.
Lemma key_nlt : forall a b, key_lt a b = false <-> fst b < fst a \/ (fst a = fst b /\ xlt (snd a) (snd b) = false).
Proof.
  intros [r1 o1] [r2 o2]. unfold key_lt. cbn [fst snd]. rewrite orb_false_iff, andb_false_iff. rewrite Nat.ltb_ge, Nat.eqb_neq. split.
  - intros [H [H1|H1]]; [left; lia|]. destruct (Nat.eq_dec r1 r2); [right; auto|left; lia].
  - intros [H|[H1 H2]]; [split; [lia|left; lia]|split; [lia|right; auto]].
Qed.
Lemma key_nlt_trans : forall a b c, knan a = false -> knan b = false -> knan c = false -> key_lt a b = false -> key_lt b c = false -> key_lt a c = false.
Proof.
  intros a b c Ha Hb Hc H1 H2. apply key_nlt in H1, H2. apply key_nlt. destruct H1 as [H1|[H1 H1']], H2 as [H2|[H2 H2']]; try (left; lia).
  right. split; [congruence|]. unfold knan in *. apply xlt_nan in H1', H2'; auto. apply xlt_nan; auto. apply (xle_trans _ (snd b)); auto.
Qed.

Section SortOn.
  Context {A : Type} (P : A -> Prop) (lt : A -> A -> bool).
  Hypothesis asym : forall x y, lt x y = true -> lt y x = false.
  Hypothesis ntrans : forall x y z, P x -> P y -> P z -> lt y x = false -> lt z y = false -> lt z x = false.
  Lemma insert_sorted_on : forall x l, P x -> Forall P l -> StronglySorted (fun a b => lt b a = false) l -> StronglySorted (fun a b => lt b a = false) (insert_by lt x l).
  Proof.
    intros x l Px F S. induction S as [|y l S IH H]; cbn [insert_by]; [constructor; constructor|]. inversion F; subst. destruct (lt y x) eqn:E.
    - constructor; auto. apply Forall_forall. intros z Hz. apply (Permutation_in z (Permutation_sym (insert_by_perm lt x l))) in Hz. destruct Hz as [<-|Hz]; [apply asym; auto|].
      rewrite Forall_forall in H. auto.
    - constructor; [constructor; auto|]. constructor; auto. rewrite Forall_forall in *. intros z Hz. apply (ntrans x y z); auto.
  Qed.
  Lemma sort_sorted_on : forall l, Forall P l -> StronglySorted (fun a b => lt b a = false) (sort_by lt l).
  Proof.
    induction l as [|x l IH]; intros F; cbn [sort_by]; [constructor|]. inversion F; subst. apply insert_sorted_on; auto.
    apply Forall_forall. intros z Hz. apply sort_by_in in Hz. rewrite Forall_forall in *. auto.
  Qed.
End SortOn.
Lemma SS_filter' : forall {A} (R : A -> A -> Prop) f l, StronglySorted R l -> StronglySorted R (filter f l).
Proof.
  intros A R f l H. induction H as [|x l H IH F]; cbn; [constructor|]. destruct (f x); auto. constructor; auto. rewrite Forall_forall in *. intros y Hy. apply filter_In in Hy. apply F. tauto.
Qed.
Lemma SS_removelast : forall {A} (R : A -> A -> Prop) l, StronglySorted R l -> StronglySorted R (removelast l).
Proof.
  intros A R l H. induction H as [|x l H IH F]; cbn; [constructor|]. destruct l; [constructor|]. constructor; auto. rewrite Forall_forall in *. intros y Hy. apply F. clear - Hy.
  revert Hy. generalize (a :: l). induction l0 as [|z l0 IH]; cbn; [tauto|]. destruct l0; [intros []|]. intros [<-|Hy]; [left; auto|right; apply IH; auto].
Qed.
Lemma removelast_incl : forall {A} (l : list A) x, In x (removelast l) -> In x l.
Proof. intros A l. induction l as [|z l IH]; cbn; [tauto|]. destruct l; [intros x []|]. intros x [<-|Hy]; [left; auto|right; apply IH; auto]. Qed.
Lemma removelast_length : forall {A} (l : list A), length (removelast l) = length l - 1.
Proof. intros A l. induction l as [|x l IH]; auto. cbn [removelast]. destruct l; auto. cbn [length] in *. rewrite IH. lia. Qed.
Lemma rev_last : forall {A} (l : list A) x k, rev l = x :: k -> l = rev k ++ [x].
Proof. intros A l x k H. rewrite <- (rev_involutive l), H. reflexivity. Qed.
Lemma SS_last : forall {A} (R : A -> A -> Prop) l x, StronglySorted R (l ++ [x]) -> forall y, In y l -> R y x.
Proof.
  intros A R l x. induction l as [|z l IH]; cbn; intros H y Hy; [tauto|]. apply StronglySorted_inv in H. destruct H as [H F]. destruct Hy as [<-|Hy]; [|auto].
  rewrite Forall_forall in F. apply F. apply in_or_app. right; left; auto.
Qed.
Lemma SS_removelast_dom : forall {A} (R : A -> A -> Prop) l, StronglySorted R l -> 2 <= length l -> forall x, In x l -> In x (removelast l) \/ exists y, In y (removelast l) /\ R y x.
Proof.
  intros A R l H L x Hx. destruct (rev l) as [|z k] eqn:E.
  - apply (f_equal (@length A)) in E. rewrite rev_length in E. cbn in E. lia.
  - apply rev_last in E. subst l. rewrite removelast_last. apply in_app_or in Hx. destruct Hx as [Hx|[<-|[]]]; [left; auto|]. right. rewrite app_length in L. cbn in L.
    destruct (rev k) as [|y k'] eqn:E; [cbn in L; lia|]. exists y. split; [left; auto|]. apply (SS_last R (y :: k') z); auto. left; auto.
Qed.

(** [x] is at least as good as [y]. *)
Definition entry_ge (x y : ientry) : Prop := key_lt (ie_key x) (ie_key y) = false.
Definition real_or (e : ientry) : Prop := is_nan (cr_or (ie_cred e)) = false.
Lemma entry_ge_refl : forall x, entry_ge x x.
Proof. intros x. apply key_irrefl. Qed.
Lemma entry_ge_trans : forall x y z, real_or x -> real_or y -> real_or z -> entry_ge x y -> entry_ge y z -> entry_ge x z.
Proof. intros x y z Hx Hy Hz. apply key_nlt_trans; auto. Qed.
Definition top_ok (c : idsd_config) (top : list ientry) : Prop := length top <= ic_num c /\ StronglySorted entry_ge top /\ Forall real_or top.

Lemma filter_lt_length : forall {A} (f : A -> bool) l x, In x l -> f x = false -> length (filter f l) < length l.
Proof.
  intros A f l x. induction l as [|y l IH]; intros Hx E; [destruct Hx|]. cbn. assert (L : length (filter f l) <= length l) by (clear; induction l as [|y l IH]; cbn; [lia|]; destruct (f y); cbn; lia).
  destruct Hx as [<-|Hx]; [rewrite E; lia|]. specialize (IH Hx E). destruct (f y); cbn; lia.
Qed.
Lemma filter_le_length : forall {A} (f : A -> bool) l, length (filter f l) <= length l.
Proof. intros A f l. induction l as [|y l IH]; cbn; [lia|]. destruct (f y); cbn; lia. Qed.
(** The parts of an update. *)
Definition fullworse (c : idsd_config) (top : list ientry) (e : ientry) : bool :=
  match rev top with [] => false | last :: _ => (length top =? ic_num c) && key_lt (ie_key e) (ie_key last) end.
Definition replaces (c : idsd_config) (e s : ientry) : bool := redundant (ic_hash c) (ie_pattern s) (ie_pattern e) && key_lt (ie_key s) (ie_key e).
Definition resists (c : idsd_config) (e s : ientry) : bool := redundant (ic_hash c) (ie_pattern s) (ie_pattern e) && negb (key_lt (ie_key s) (ie_key e)).
Definition kept_of (c : idsd_config) (top : list ientry) (e : ientry) := filter (fun s => negb (replaces c e s)) top.
Definition placed (c : idsd_config) (top : list ientry) (e : ientry) := sort_by (fun x y => key_lt (ie_key y) (ie_key x)) (kept_of c top e ++ [e]).
Lemma update_eq : forall c top e, top_k_update c top e =
  if fullworse c top e then top
  else if existsb (replaces c e) top || negb (existsb (resists c e) top) then
    (if ic_num c <? length (placed c top e) then removelast (placed c top e) else placed c top e)
  else kept_of c top e.
Proof. reflexivity. Qed.
Lemma update_spec : forall c top e, 1 <= ic_num c -> top_ok c top -> real_or e ->
  let top' := top_k_update c top e in
  top_ok c top' /\ (forall x, In x top' -> In x (e :: top)) /\ (forall x, In x (e :: top) -> exists y, In y top' /\ entry_ge y x) /\ length top' <= S (length top).
Proof.
  intros c top e N (L & Ss & F) He top'. subst top'. rewrite update_eq. destruct (fullworse c top e) eqn:W.
  - unfold fullworse in W. split; [split; auto|]. split; [intros x Hx; right; auto|]. split; [|lia]. intros x [<-|Hx]; [|exists x; split; auto; apply entry_ge_refl].
    destruct (rev top) as [|last k] eqn:R; [discriminate|]. apply andb_true_iff in W. destruct W as [_ W]. apply rev_last in R. exists last. split; [subst top; apply in_or_app; right; left; auto|].
    apply key_asym; auto.
  - clear W. set (kept := kept_of c top e).
    assert (KF : Forall real_or kept) by (apply Forall_forall; intros x Hx; apply filter_In in Hx; rewrite Forall_forall in F; apply F; tauto).
    assert (KD : forall x, In x top -> In x kept \/ entry_ge e x).
    { intros x Hx. destruct (replaces c e x) eqn:E; [right|left; apply filter_In; split; auto; rewrite E; auto]. apply andb_true_iff in E. destruct E as [_ E]. apply key_asym; exact E. }
    assert (KL : length kept <= length top) by apply filter_le_length.
    destruct (existsb (replaces c e) top || negb (existsb (resists c e) top)) eqn:B.
    + set (l := placed c top e).
      assert (Fl : Forall real_or (kept ++ [e])) by (apply Forall_app; split; auto).
      assert (Sl : StronglySorted entry_ge l).
      { apply (sort_sorted_on real_or (fun x y => key_lt (ie_key y) (ie_key x))); auto. - intros x y H. apply key_asym; auto. - intros x y z Px Py Pz H1 H2. apply (entry_ge_trans x y z); auto. }
      assert (Il : forall x, In x l <-> In x kept \/ x = e). { intros x. unfold l, placed. rewrite sort_by_in, in_app_iff. fold kept. cbn. intuition congruence. }
      assert (Ll : length l = S (length kept)) by (unfold l, placed; rewrite sort_by_length, app_length; fold kept; cbn; lia).
      assert (Fl' : Forall real_or l) by (apply Forall_forall; intros x Hx; rewrite Forall_forall in Fl; apply Fl; unfold l, placed in Hx; apply sort_by_in in Hx; auto).
      assert (Il' : forall x, In x l -> In x (e :: top)). { intros x Hx. apply Il in Hx. destruct Hx as [Hx| ->]; [right; apply filter_In in Hx; tauto|left; auto]. }
      assert (Dl : forall x, In x (e :: top) -> exists y, In y l /\ entry_ge y x).
      { intros x [<-|Hx]; [exists e; split; [apply Il; auto|apply entry_ge_refl]|]. destruct (KD x Hx) as [Hk|Hk]; [exists x; split; [apply Il; auto|apply entry_ge_refl]|exists e; split; [apply Il; auto|auto]]. }
      destruct (ic_num c <? length l) eqn:Q.
      * apply Nat.ltb_lt in Q. assert (Q2 : length l <= S (ic_num c)) by lia. split; [|split; [|split]].
        -- split; [rewrite removelast_length; lia|]. split; [apply SS_removelast; auto|]. apply Forall_forall. intros x Hx. apply removelast_incl in Hx. rewrite Forall_forall in Fl'; auto.
        -- intros x Hx. apply Il'. apply removelast_incl; auto.
        -- intros x Hx. destruct (Dl x Hx) as (y & Hy & Gy). destruct (SS_removelast_dom entry_ge l Sl ltac:(lia) y Hy) as [Hr|(z & Hz & Gz)]; [exists y; auto|].
           exists z. split; auto. assert (R : forall w, In w (e :: top) -> real_or w) by (intros w [<-|Hw]; [auto|rewrite Forall_forall in F; auto]).
           apply (entry_ge_trans z y x); auto. apply R, Il'. apply removelast_incl; auto.
        -- rewrite removelast_length. lia.
      * apply Nat.ltb_ge in Q. split; [split; auto|]. split; auto. split; auto. lia.
    + apply orb_false_iff in B. destruct B as [B1 B2]. apply negb_false_iff in B2. apply existsb_exists in B2. destruct B2 as (s & Hs & E). apply andb_true_iff in E. destruct E as [E1 E2]. apply negb_true_iff in E2.
      assert (K : kept = top).
      { unfold kept, kept_of. clear - B1. induction top as [|x l IH]; [reflexivity|]. cbn [existsb] in B1. apply orb_false_iff in B1. destruct B1 as [B1 B2]. cbn [filter]. rewrite B1. cbn [negb]. f_equal. apply IH; auto. }
      rewrite K. split; [split; auto|]. split; [intros x Hx; right; auto|]. split; [|lia]. intros x [<-|Hx]; [exists s; split; auto|exists x; split; auto; apply entry_ge_refl].
Qed.
(** Many offers. *)
Lemma offers_spec : forall c es top, 1 <= ic_num c -> top_ok c top -> Forall real_or es ->
  let top' := fold_left (top_k_update c) es top in
  top_ok c top' /\ (forall x, In x top' -> In x top \/ In x es) /\ (forall x, In x top \/ In x es -> exists y, In y top' /\ entry_ge y x) /\ length top' <= length top + length es.
Proof.
  intros c es. induction es as [|e es IH]; intros top N T F; cbn [fold_left].
  - split; auto. split; [auto|]. split; [|cbn; lia]. intros x [Hx|[]]. exists x. split; auto. apply entry_ge_refl.
  - inversion F as [|? ? Fe Fes]; subst. destruct (update_spec c top e N T Fe) as (A & B & C & D). destruct (IH (top_k_update c top e) N A Fes) as (A' & B' & C' & D').
    split; auto. split; [|split].
    + intros x Hx. destruct (B' x Hx) as [H|H]; [destruct (B x H) as [<-|H']; [right; left; auto|auto]|right; right; auto].
    + assert (R : forall w, In w top \/ In w (e :: es) -> real_or w). { destruct T as (_ & _ & T). intros w [Hw|Hw]; rewrite Forall_forall in *; auto. }
      assert (R' : forall w, In w (fold_left (top_k_update c) es (top_k_update c top e)) -> real_or w) by (destruct A' as (_ & _ & A'); rewrite Forall_forall in A'; auto).
      intros x Hx. assert (X : exists y, (In y (top_k_update c top e) \/ In y es) /\ entry_ge y x).
      { destruct Hx as [Hx|[<-|Hx]]; [destruct (C x (or_intror Hx)) as (y & Hy & G); exists y; auto|destruct (C e (or_introl eq_refl)) as (y & Hy & G); exists y; auto|exists x; split; auto; apply entry_ge_refl]. }
      destruct X as (y & Hy & G). destruct (C' y Hy) as (z & Hz & G'). exists z. split; auto. apply (entry_ge_trans z y x); auto.
      apply R. destruct Hy as [Hy|Hy]; [destruct (B y Hy) as [<-|Hy']; [right; left; auto|left; auto]|right; right; auto].
    + cbn [length]. lia.
Qed.
(** An entry of rank 0 changes nothing when the list is full of entries of positive rank. *)
Lemma update_rank0 : forall c top e last k, rev top = last :: k -> length top = ic_num c -> 0 < ie_rank last -> ie_rank e = 0 -> top_k_update c top e = top.
Proof.
  intros c top e last k R L P Z. unfold top_k_update. rewrite R. replace (length top =? ic_num c) with true by (symmetry; apply Nat.eqb_eq; auto). cbn [andb].
  replace (key_lt (ie_key e) (ie_key last)) with true; [reflexivity|]. symmetry. unfold key_lt, ie_key. cbn [fst snd]. rewrite Z. apply orb_true_iff. left. apply Nat.ltb_lt. auto.
Qed.
Lemma fold_rank0 : forall c es top last k, rev top = last :: k -> length top = ic_num c -> 0 < ie_rank last -> (forall e, In e es -> ie_rank e = 0) -> fold_left (top_k_update c) es top = top.
Proof.
  intros c es. induction es as [|e es IH]; intros top last k R L P Z; [reflexivity|]. cbn [fold_left]. rewrite (update_rank0 c top e last k); auto; [|apply Z; left; auto]. apply (IH top last k); auto. intros; apply Z; right; auto.
Qed.
