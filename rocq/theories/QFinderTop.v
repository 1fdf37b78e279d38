(** Proofs about the selection of the top-k patterns of QFinder. *)
From Verif Require Import SDMapProofs SDMapStarProofs CorePattern CoreOrder OrderFacts Properties_Core QFinderSpec IDSDTop IDSDProofs Properties_IDSD.
From Verif Require Import Properties_Cred.
From Coq Require Import QArith Lia Permutation Sorted Lqa.
Open Scope string_scope.
Open Scope list_scope.
Open Scope nat_scope.

(** * Sub-lists *)
Lemma sub_refl : forall {A} (l : list A), sub l l.
Proof. intros A l. induction l; constructor; auto. Qed.
Lemma sub_trans : forall {A} (l m n : list A), sub l m -> sub m n -> sub l n.
Proof.
  intros A l m n H1 H2. revert l H1. induction H2 as [|x m n S IH|x m n S IH]; intros l H1; auto.
  - inversion H1; subst; [apply sub_keep|apply sub_drop]; auto.
  - apply sub_drop. auto.
Qed.
Lemma sub_nil_l : forall {A} (l : list A), sub [] l.
Proof. intros A l. induction l; constructor; auto. Qed.
Lemma sub_app : forall {A} (a b a' b' : list A), sub a a' -> sub b b' -> sub (a ++ b) (a' ++ b').
Proof. intros A a b a' b' H. induction H; intros K; cbn [app]; auto; constructor; auto. Qed.
Lemma sub_length : forall {A} (l m : list A), sub l m -> length l <= length m.
Proof. intros A l m H. induction H; cbn; lia. Qed.
Lemma sub_map : forall {A B} (f : A -> B) l m, sub l m -> sub (map f l) (map f m).
Proof. intros A B f l m H. induction H; cbn [map]; constructor; auto. Qed.
Lemma sub_nodup : forall {A} (l m : list A), sub l m -> NoDup m -> NoDup l.
Proof. intros A l m H. induction H as [|x l m H IH|x l m H IH]; intros N; auto; inversion N; subst; auto. constructor; auto. intros I. apply sub_in in H. auto. Qed.
Lemma sub_sorted : forall {A} (R : A -> A -> Prop) l m, sub l m -> StronglySorted R m -> StronglySorted R l.
Proof. intros A R l m H. induction H as [|x l m H IH|x l m H IH]; intros S0; auto; inversion S0; subst; auto. constructor; auto. apply Forall_forall. intros y Hy. apply sub_in in H. rewrite Forall_forall in *. auto. Qed.

Lemma SS_impl : forall {A} (R R' : A -> A -> Prop) l, (forall a b, R a b -> R' a b) -> StronglySorted R l -> StronglySorted R' l.
Proof. intros A R R' l I H. induction H as [|x l H IH F]; constructor; auto. rewrite Forall_forall in *. auto. Qed.
(** * Removing elements *)
Lemma pair_ind : forall {A} (P : list A -> Prop), P [] -> (forall x, P [x]) -> (forall x y l, P l -> P (y :: l) -> P (x :: y :: l)) -> forall l, P l.
Proof. intros A P H0 H1 H2. assert (G : forall l, P l /\ forall x, P (x :: l)) by (induction l as [|y l [IH1 IH2]]; split; auto). intros l. apply G. Qed.
Lemma remove_sub : forall {A} (f : A -> bool) l, sub (remove_iterating f l) l.
Proof.
  intros A f l. induction l as [|x|x y l IH1 IH2] using pair_ind; [constructor|cbn; destruct (f x); repeat constructor|].
  change (remove_iterating f (x :: y :: l)) with (if f x then y :: remove_iterating f l else x :: remove_iterating f (y :: l)). destruct (f x); [apply sub_drop, sub_keep; auto|apply sub_keep; auto].
Qed.
Lemma remove_keeps : forall {A} (f : A -> bool) l x, In x l -> In x (remove_iterating f l) \/ f x = true.
Proof.
  intros A f l. induction l as [|x|x y l IH1 IH2] using pair_ind; intros z Hz; [destruct Hz|cbn in *; destruct Hz as [<-|[]]; destruct (f x) eqn:E; auto; left; left; auto|].
  change (remove_iterating f (x :: y :: l)) with (if f x then y :: remove_iterating f l else x :: remove_iterating f (y :: l)). destruct (f x) eqn:E.
  - destruct Hz as [<-|[<-|Hz]]; [right; auto|left; left; auto|]. destruct (IH1 z Hz); [left; right; auto|auto].
  - destruct Hz as [<-|Hz]; [left; left; auto|]. destruct (IH2 z Hz); [left; right; auto|auto].
Qed.
Definition wf_entry (e : qentry) : Prop := Forall nominal (fst e) /\ sorted_strictly (fst e) /\ is_nan (qp e) = false.
Lemma pattern_eq_refl : forall X, pattern_eq X X = true.
Proof. intros X. apply pattern_eq_Forall2. induction X; constructor; auto. apply sel_eq_refl. Qed.
Lemma pattern_eq_nominal : forall X Y, Forall nominal X -> Forall nominal Y -> pattern_eq X Y = true -> X = Y.
Proof. intros X Y HX HY E. apply pattern_eq_Forall2 in E. induction E as [|x y X Y Q F IH]; auto. inversion HX; inversion HY; subst. apply sel_eq_nominal in Q; auto. subst. f_equal; auto. Qed.
Lemma remove_pattern_spec : forall p l, (exists z, In z l /\ pattern_eq (fst z) p = true) -> exists a z b, l = a ++ z :: b /\ pattern_eq (fst z) p = true /\ remove_pattern p l = a ++ b.
Proof.
  intros p l. induction l as [|x l IH]; intros (z & Hz & E); [destruct Hz|]. cbn [remove_pattern]. destruct (pattern_eq (fst x) p) eqn:Ex; [exists [], x, l; auto|].
  destruct Hz as [<-|Hz]; [congruence|]. destruct IH as (a & w & b & -> & E1 & E2); [exists z; auto|]. exists (x :: a), w, b. rewrite E2. auto.
Qed.
Lemma xle_refl' : forall a, is_nan a = false -> xle a a = true.
Proof. intros [| |q|] H; try discriminate; try reflexivity. apply xle_fin. lra. Qed.
Lemma first_max_spec : forall l m, is_nan (qp m) = false -> Forall (fun e => is_nan (qp e) = false) l ->
  In (first_max m l) (m :: l) /\ forall y, In y (m :: l) -> xle (qp y) (qp (first_max m l)) = true.
Proof.
  induction l as [|x l IH]; intros m Hm F; cbn [first_max]; [split; [left; auto|intros y [<-|[]]; apply xle_refl'; auto]|]. inversion F as [|? ? Fx Fl]; subst.
  destruct (xlt (qp m) (qp x)) eqn:E.
  - destruct (IH x Fx Fl) as [A B]. split; [right; auto|]. intros y [<-|[<-|Hy]]; [|apply B; left; auto|apply B; right; auto].
    apply (xle_trans _ (qp x)); [unfold xle; rewrite E; reflexivity|apply B; left; auto].
  - destruct (IH m Hm Fl) as [A B]. split; [destruct A as [A|A]; [left; auto|right; right; auto]|]. intros y [<-|[<-|Hy]]; [apply B; left; auto| |apply B; right; auto].
    apply (xle_trans _ (qp m)); [apply xlt_nan in E; auto|apply B; left; auto].
Qed.
Lemma max_p_ge : forall l v, Forall (fun e => is_nan (qp e) = false) l -> max_p l = Ok v -> is_nan v = false /\ forall y, In y l -> xle (qp y) v = true.
Proof.
  intros [|x l] v F E; [discriminate|]. cbn [max_p] in E. injection E as <-. inversion F as [|? ? Fx Fl]; subst. clear F.
  assert (G : forall l m, is_nan m = false -> Forall (fun e => is_nan (qp e) = false) l -> is_nan (fold_left xmax (map qp l) m) = false /\ xle m (fold_left xmax (map qp l) m) = true /\ forall y, In y l -> xle (qp y) (fold_left xmax (map qp l) m) = true).
  { clear. induction l as [|x l IH]; intros m Hm F; cbn [map fold_left]; [split; [auto|]; split; [apply xle_refl'; auto|intros y []]|]. inversion F as [|? ? Fx Fl]; subst.
    assert (Hn : is_nan (xmax m (qp x)) = false) by (unfold xmax; destruct (xlt _ _); auto). destruct (IH (xmax m (qp x)) Hn Fl) as (A & B & C). split; auto.
    assert (M1 : xle m (xmax m (qp x)) = true). { unfold xmax. destruct (xlt m (qp x)) eqn:E; [unfold xle; rewrite E; reflexivity|apply xle_refl'; auto]. }
    assert (M2 : xle (qp x) (xmax m (qp x)) = true). { unfold xmax. destruct (xlt m (qp x)) eqn:E; [apply xle_refl'; auto|apply xlt_nan in E; auto]. }
    split; [apply (xle_trans _ _ _ M1 B)|]. intros y [<-|Hy]; [apply (xle_trans _ _ _ M2 B)|auto]. }
  destruct (G l (qp x) Fx Fl) as (A & B & C). split; auto. intros y [<-|Hy]; auto.
Qed.
Lemma xle_xlt_trans : forall a b d, xle a b = true -> xlt b d = true -> xlt a d = true.
Proof.
  intros [| |x|] [| |y|] [| |z|] H1 H2; try discriminate; try reflexivity. apply xle_fin in H1. cbn in *. apply negb_true_iff in H2. apply negb_true_iff. apply not_true_iff_false in H2. apply not_true_iff_false.
  rewrite Qle_bool_iff in *. lra.
Qed.

Lemma nodup_app : forall {A} (u v : list A), NoDup u -> NoDup v -> (forall p, In p u -> In p v -> False) -> NoDup (u ++ v).
Proof.
  intros A u v Hu Hv D. induction Hu as [|p l N Hl IH]; cbn [app]; auto. constructor; [|apply IH; intros q Hq; apply D; right; auto].
  intros K. apply in_app_or in K. destruct K as [K|K]; auto. apply (D p); auto. left; auto.
Qed.
Lemma NoDup_app_disjoint : forall {A} (u v : list A) p, In p u -> In p v -> NoDup (u ++ v) -> False.
Proof.
  intros A u v p. induction u as [|q u IH]; intros Hu Hv N; [destruct Hu|]. cbn [app] in N. inversion N; subst. destruct Hu as [->|Hu]; auto. apply H1, in_or_app; auto.
Qed.
(** * Selection *)
Section Select.
  Variable c : qconfig.
  Hypothesis Hnum : (1 <= q_num c)%Z.
  Variable cands : list qentry.
  Hypothesis Hwf : Forall wf_entry cands.
  Hypothesis Hnd : NoDup (map fst cands).
  Notation reason := (reason c cands).
  Notation before_ok := (before_ok c).
  Notation list_ok := (list_ok c cands).
  (** The order of the ranked candidates. *)
  Notation prec := (fun x y : qentry => q_rank c (snd y) < q_rank c (snd x) \/ (q_rank c (snd y) = q_rank c (snd x) /\ xlt (qp y) (qp x) = false)).

  Lemma wf_in : forall l, incl l cands -> Forall (fun e => is_nan (qp e) = false) l.
  Proof. intros l H. apply Forall_forall. intros e He. rewrite Forall_forall in Hwf. apply Hwf; auto. Qed.
  Lemma red_spec : forall x y, In x cands -> In y cands -> (q_redundant c x y = true <-> nested (fst x) (fst y)).
  Proof. intros x y Hx Hy. rewrite Forall_forall in Hwf. destruct (Hwf x Hx) as (A & B & _). destruct (Hwf y Hy) as (A' & B' & _). apply redundant_nested; auto. Qed.
  Lemma entry_by_pattern : forall x y, In x cands -> In y cands -> fst x = fst y -> x = y.
  Proof.
    clear - Hnd. intros x y Hx Hy E. induction cands as [|z l IH]; [destruct Hx|]. cbn [map] in Hnd. inversion Hnd as [|? ? N1 N2]; subst.
    destruct Hx as [->|Hx], Hy as [->|Hy]; auto; exfalso; apply N1; apply in_map_iff; [exists y|exists x]; auto.
  Qed.
  Lemma nested_same_length : forall x y, In x cands -> In y cands -> nested (fst x) (fst y) -> length (fst x) = length (fst y) -> x = y.
  Proof.
    intros x y Hx Hy N L. rewrite Forall_forall in Hwf. destruct (Hwf x Hx) as (A & B & _). destruct (Hwf y Hy) as (A' & B' & _). apply entry_by_pattern; auto.
    assert (G : forall u v : list selector, Forall nominal u -> Forall nominal v -> sorted_strictly u -> sorted_strictly v -> incl u v -> length u = length v -> u = v).
    { clear. intros u v Nu Nv Su Sv I L. apply sorted_unique; auto. intros s. split; auto. apply (NoDup_length_incl (sorted_nodup_nominal u Nu Su)); auto. lia. }
    destruct N as [N|N]; [apply G; auto|symmetry; apply G; auto].
  Qed.
  Lemma offer_total : forall top x, exists r, q_offer c top x = Ok r.
  Proof.
    intros top x. unfold q_offer. destruct (Z.of_nat (length top) =? q_num c)%Z eqn:E.
    - apply Z.eqb_eq in E. destruct top as [|t top]; [cbn in E; lia|]. cbn [max_p bind]. destruct (xlt _ _); [eauto|]. destruct (existsb _ _); eauto.
    - cbn [bind]. destruct (existsb _ _); eauto.
  Qed.
  Lemma offer_spec : forall top x r, list_ok top -> In x cands -> ~ In x top -> (forall t, In t top -> length (fst t) <= length (fst x)) -> q_offer c top x = Ok r ->
    list_ok (fst r) /\ sub (fst r) (top ++ [x]) /\ (forall Y, In Y (top ++ [x]) -> In Y (fst r) \/ reason Y) /\
    (snd r = false -> forall Y, In Y cands -> ~ In Y top -> length (fst x) = length (fst Y) -> prec x Y -> reason Y).
  Proof.
    intros top x r (TI & TN & TL & TS) Hx Nx Hlen E. unfold q_offer in E.
    assert (Nxp : ~ In (fst x) (map fst top)). { intros K. apply in_map_iff in K. destruct K as (t & K & Ht). apply Nx. rewrite <- (entry_by_pattern t x (TI t Ht) Hx K). auto. }
    destruct (if (Z.of_nat (length top) =? q_num c)%Z then do m <- max_p top; Ok (xlt m (qp x)) else Ok false) as [worse|] eqn:W; [|discriminate]. cbn [bind] in E. destruct worse.
    - injection E as <-. cbn [fst snd]. destruct (Z.of_nat (length top) =? q_num c)%Z eqn:En; [|discriminate]. apply Z.eqb_eq in En. destruct (max_p top) as [m|] eqn:Em; [|discriminate]. cbn [bind] in W. injection W as W.
      destruct (max_p_ge top m (wf_in top TI) Em) as [Mn Mg].
      assert (Ab : forall Y, In Y cands -> ~ In Y top -> length (fst x) = length (fst Y) -> prec x Y -> reason Y).
      { intros Y HY NY L [R|[R P]]; [right; right; right; exists x, top|right; right; left; exists top].
        - split; auto. split; auto. split; auto. split; [apply (NoDup_map_inv fst); auto|]. split; auto. split; auto. intros e He. apply (xle_xlt_trans _ m); auto.
        - split; [apply (NoDup_map_inv fst); auto|]. split; auto. split; auto. split; auto. intros e He. apply (xle_trans _ m); auto. apply (xle_trans _ (qp x)); [apply xlt_xle; auto|].
          rewrite Forall_forall in Hwf. apply xlt_nan in P; auto; apply Hwf; auto. }
      split; [split; auto|]. split; [rewrite <- (app_nil_r top) at 1; apply sub_app; [apply sub_refl|apply sub_nil_l]|]. split; auto.
      intros Y HY. apply in_app_or in HY. destruct HY as [HY|[<-|[]]]; auto. right. apply Ab; auto. right. split; auto. apply xlt_irrefl.
    - clear W. destruct (existsb (q_stops c x) top) eqn:Es.
      + injection E as <-. cbn [fst snd]. split; [split; auto|]. split; [rewrite <- (app_nil_r top) at 1; apply sub_app; [apply sub_refl|apply sub_nil_l]|]. split; [|discriminate].
        intros Y HY. apply in_app_or in HY. destruct HY as [HY|[<-|[]]]; auto. right. left. apply existsb_exists in Es. destruct Es as (t & Ht & Es). unfold q_stops in Es. apply andb_true_iff in Es. destruct Es as [Er Es].
        apply red_spec in Er; auto. apply orb_true_iff in Es. destruct Es as [Es|Es]; [apply Nat.eqb_eq in Es; exfalso; apply Nx; rewrite (nested_same_length x t); auto|].
        apply andb_true_iff in Es. destruct Es as [El Eo]. apply Nat.ltb_lt in El. exists t. split; auto. split; [destruct Er; [right|left]; auto|]. auto.
      + set (kept := remove_iterating (q_replaces c x) top) in *. assert (SK : sub kept top) by apply remove_sub. set (l := kept ++ [x]) in *.
        assert (SL : sub l (top ++ [x])) by (apply sub_app; [auto|apply sub_refl]).
        assert (NL : NoDup (map fst (top ++ [x]))). { rewrite map_app. cbn [map]. apply (Permutation_NoDup (Permutation_cons_append (map fst top) (fst x))). constructor; auto. }
        assert (IL : incl (top ++ [x]) cands). { intros e He. apply in_app_or in He. destruct He as [He|[<-|[]]]; auto. }
        assert (BL : StronglySorted before_ok l).
        { assert (BK : StronglySorted before_ok kept) by (apply (sub_sorted _ _ _ SK TS)). assert (Bx : forall t, In t kept -> before_ok t x).
          { intros t Ht N. assert (Ht' : In t top) by (apply (sub_in _ _ _ SK); auto). assert (Ns : q_stops c x t = false) by (apply not_true_is_false; intros K; apply not_true_iff_false in Es; apply Es, existsb_exists; exists t; auto).
            unfold q_stops in Ns. assert (Er : q_redundant c x t = true) by (apply red_spec; auto; destruct N; [right|left]; auto). rewrite Er in Ns. cbn [andb] in Ns. apply orb_false_iff in Ns. destruct Ns as [N1 N2]. apply Nat.eqb_neq in N1.
            specialize (Hlen t Ht'). assert (L1 : length (fst t) < length (fst x)) by lia. split; auto. unfold longer in N2. replace (length (fst t) <? length (fst x)) with true in N2 by (symmetry; apply Nat.ltb_lt; auto). exact N2. }
          unfold l. clear - BK Bx. induction kept as [|t k IH]; cbn [app]; [repeat constructor|]. inversion BK; subst. constructor; [apply IH; auto; intros; apply Bx; right; auto|].
          rewrite Forall_forall in *. intros y Hy. apply in_app_or in Hy. destruct Hy as [Hy|[<-|[]]]; auto. apply Bx; left; auto. }
        assert (RL : forall Y, In Y (top ++ [x]) -> In Y l \/ reason Y).
        { intros Y HY. apply in_app_or in HY. destruct HY as [HY|[<-|[]]]; [|left; apply in_or_app; right; left; auto]. destruct (remove_keeps (q_replaces c x) top Y HY) as [K|K]; [left; apply in_or_app; auto|].
          right. right. left. unfold q_replaces in K. repeat (apply andb_true_iff in K; destruct K as [K ?]). exists x. split; auto. apply red_spec in K; auto. split; [destruct K; [right|left]; auto|]. split; [apply Nat.ltb_lt; auto|]. auto. }
        assert (LL : length l <= S (length top)) by (unfold l; rewrite app_length; apply sub_length in SK; cbn; lia).
        assert (Il : incl l cands) by (intros e He; apply IL, (sub_in _ _ _ SL); auto). assert (NDl : NoDup (map fst l)) by (apply (sub_nodup _ _ (sub_map fst _ _ SL)); auto).
        injection E as <-. cbn [fst snd]. destruct (q_num c <? Z.of_nat (length l))%Z eqn:En.
        * apply Z.ltb_lt in En. destruct l as [|y0 l0] eqn:El; [cbn in En; lia|]. rewrite <- El in *. assert (Ed : drop_max l = remove_pattern (fst (first_max y0 l0)) l) by (rewrite El; reflexivity).
          assert (Fn := wf_in l Il). rewrite El in Fn. assert (F1 := Forall_inv Fn). assert (F2 := Forall_inv_tail Fn). destruct (first_max_spec l0 y0 F1 F2) as [Mi Mg]. set (m := first_max y0 l0) in *. rewrite <- El in Mi, Mg.
          destruct (remove_pattern_spec (fst m) l) as (a & z & b & Ea & Ez & Er); [exists m; split; auto; apply pattern_eq_refl|]. assert (Zl : In z l) by (rewrite Ea; apply in_or_app; right; left; auto).
          assert (Zm : z = m). { apply entry_by_pattern; auto. rewrite Forall_forall in Hwf. apply pattern_eq_nominal; auto; apply Hwf; auto. }
          rewrite Ed, Er. assert (Sd : sub (a ++ b) l) by (rewrite Ea; apply sub_app; [apply sub_refl|apply sub_drop, sub_refl]).
          assert (Ld : S (length (a ++ b)) = length l) by (rewrite Ea, !app_length; cbn; lia).
          change (pattern * qcred)%type with qentry in *. assert (Lz : (Z.of_nat (length (a ++ b)) <= q_num c)%Z) by (revert Ld LL TL; unfold qentry; lia).
          split; [|split; [eapply sub_trans; eauto|split; [|discriminate]]].
          -- split; [intros e He; apply Il, (sub_in _ _ _ Sd); auto|]. split; [apply (sub_nodup _ _ (sub_map fst _ _ Sd)); auto|]. split; [exact Lz|apply (sub_sorted _ _ _ Sd BL)].
          -- intros Y HY. destruct (RL Y HY) as [K|K]; auto. rewrite Ea in K. apply in_app_or in K. destruct K as [K|[K|K]]; [left; apply in_or_app; auto| |left; apply in_or_app; auto].
             right. right. right. left. subst Y. exists (a ++ b). assert (NDz := NoDup_map_inv fst _ NDl). split; [apply (sub_nodup _ _ Sd); auto|]. split; [intros e He; apply Il, (sub_in _ _ _ Sd); auto|].
             split; [rewrite Ea in NDz; apply NoDup_remove_2 in NDz; auto|]. split; [revert Ld LL TL En; unfold qentry; lia|]. intros e He. rewrite Zm. apply Mg. apply (sub_in _ _ _ Sd); auto.
        * apply Z.ltb_ge in En. split; [split; auto|]. split; auto. split; auto. discriminate.
  Qed.
  (** One length: the rest of the patterns of the length is ranked below. *)
  Lemma group_spec : forall g top, list_ok top -> incl g cands -> NoDup (map fst (top ++ g)) -> (forall t x, In t top -> In x g -> length (fst t) <= length (fst x)) ->
    (forall x y, In x g -> In y g -> length (fst x) = length (fst y)) -> StronglySorted prec g ->
    exists top', q_group c top g = Ok top' /\ list_ok top' /\ sub top' (top ++ g) /\ forall Y, In Y (top ++ g) -> In Y top' \/ reason Y.
  Proof.
    induction g as [|x g IH]; intros top T I ND Hl He Hr; cbn [q_group].
    - exists top. rewrite app_nil_r. split; auto. split; auto. split; [apply sub_refl|auto].
    - destruct (offer_total top x) as (r & E). rewrite E. cbn [bind]. assert (Nx : ~ In x top). { intros K. rewrite map_app in ND. cbn [map] in ND. apply NoDup_remove_2 in ND. apply ND. apply in_or_app. left. apply in_map; auto. }
      destruct (offer_spec top x r T (I x (or_introl eq_refl)) Nx) as (A & B & C & D); auto; [intros t Ht; apply Hl; auto; left; auto|]. inversion Hr as [|? ? Hr1 Hr2]; subst. rewrite Forall_forall in Hr2.
      assert (AS : top ++ x :: g = (top ++ [x]) ++ g) by (rewrite <- app_assoc; reflexivity).
      destruct (snd r) eqn:Es.
      + destruct (IH (fst r) A) as (top' & E' & A' & B' & C').
        * intros y Hy. apply I. right; auto.
        * rewrite AS in ND. apply (sub_nodup _ (map fst ((top ++ [x]) ++ g))); auto. apply sub_map, sub_app; [auto|apply sub_refl].
        * intros t y Ht Hy. apply (sub_in _ _ _ B) in Ht. apply in_app_or in Ht. destruct Ht as [Ht|[<-|[]]]; [apply Hl; auto; right; auto|]. rewrite (He x y); auto; [left; auto|right; auto].
        * intros y z Hy Hz. apply He; right; auto.
        * auto.
        * exists top'. split; auto. split; auto. split; [rewrite AS; eapply sub_trans; [exact B'|apply sub_app; [auto|apply sub_refl]]|].
          intros Y HY. rewrite AS in HY. apply in_app_or in HY. destruct HY as [HY|HY]; [destruct (C Y HY) as [K|K]; auto; apply C', in_or_app; auto|apply C', in_or_app; auto].
      + exists (fst r). split; auto. split; auto. split; [rewrite AS; eapply sub_trans; [exact B|]; rewrite <- (app_nil_r (top ++ [x])) at 1; apply sub_app; [apply sub_refl|apply sub_nil_l]|].
        intros Y HY. rewrite AS in HY. apply in_app_or in HY. destruct HY as [HY|HY]; auto. right. apply (D eq_refl); [apply I; right; auto| |apply He; [left; auto|right; auto]|apply Hr2; auto].
        intros K. rewrite map_app in ND. cbn [map] in ND. apply NoDup_remove_1 in ND. apply (NoDup_app_disjoint _ _ (fst Y)) in ND; auto; apply in_map; auto.
  Qed.
  (** All the lengths. *)
  Lemma groups_spec : forall ks top done, list_ok top -> NoDup ks -> StronglySorted Nat.le ks -> (forall k d, In k ks -> In d done -> d < k) -> (forall t, In t top -> In (length (fst t)) done) ->
    StronglySorted prec cands ->
    exists top', fold_res (fun top k => q_group c top (filter (fun e => length (fst e) =? k) cands)) ks top = Ok top' /\ list_ok top' /\ (forall t, In t top' -> In (length (fst t)) (ks ++ done)) /\
      forall Y, In Y top \/ (In Y cands /\ In (length (fst Y)) ks) -> In Y top' \/ reason Y.
  Proof.
    induction ks as [|k ks IH]; intros top done T NK SKs Hd Ht Hr; cbn [fold_res].
    - exists top. split; auto. split; auto. split; auto. intros Y [HY|[_ []]]; auto.
    - set (g := filter (fun e => length (fst e) =? k) cands). assert (Gk : forall x, In x g <-> In x cands /\ length (fst x) = k) by (intros x; unfold g; rewrite filter_In, Nat.eqb_eq; tauto).
      assert (Fk : forall t, In t top -> length (fst t) < k) by (intros t K; apply (Hd k); [left; auto|auto]).
      destruct (group_spec g top T) as (top1 & E1 & A1 & B1 & C1).
      + intros x Hx. apply Gk in Hx. tauto.
      + destruct T as (TI & TN & _). assert (SG' : sub (map fst g) (map fst cands)). { apply sub_map. unfold g. clear. induction cands as [|x l IHl]; cbn [filter]; [constructor|]. destruct (_ =? _); constructor; auto. }
        assert (NG := sub_nodup _ _ SG' Hnd). assert (DJ : forall p, In p (map fst top) -> In p (map fst g) -> False).
        { intros p H1 H2. apply in_map_iff in H1, H2. destruct H1 as (t & <- & Ht1), H2 as (y & Ey & Hy). apply Gk in Hy. destruct Hy as [_ Hy]. specialize (Fk t Ht1). rewrite Ey in Hy. lia. }
        rewrite map_app. apply nodup_app; auto.
      + intros t x K Hx. apply Gk in Hx. destruct Hx as [_ Hx]. specialize (Fk t K). apply Nat.lt_le_incl. rewrite <- Hx in Fk. exact Fk.
      + intros x y Hx Hy. apply Gk in Hx, Hy. destruct Hx as [_ Hx], Hy as [_ Hy]. exact (eq_trans Hx (eq_sym Hy)).
      + apply SS_filter'; auto.
      + rewrite E1. cbn [bind]. inversion NK as [|? ? Nk1 Nk2]; subst. inversion SKs as [|? ? Sk1 Sk2]; subst. rewrite Forall_forall in Sk2.
        destruct (IH top1 (k :: done) A1 Nk2 Sk1) as (top' & E' & A' & L' & C'); auto.
        * intros j d Hj [<-|Hd']; [|apply (Hd j d); [right; auto|auto]]. specialize (Sk2 j Hj). assert (j <> k) by (intros ->; contradiction). unfold Nat.le in *. lia.
        * intros t K. apply (sub_in _ _ _ B1) in K. apply in_app_or in K. destruct K as [K|K]; [right; auto|left; symmetry; apply Gk in K; tauto].
        * exists top'. split; auto. split; auto. split; [intros t K; specialize (L' t K); apply in_app_or in L'; destruct L' as [L'|[L'|L']]; [right; apply in_or_app; auto|left; auto|right; apply in_or_app; auto]|].
          intros Y [HY|[HY [HK|HK]]]; [|subst k|apply C'; auto].
          -- destruct (C1 Y) as [K|K]; [apply in_or_app; auto| |auto]. apply C'. auto.
          -- destruct (C1 Y) as [K|K]; [apply in_or_app; right; apply Gk; auto| |auto]. apply C'. auto.
  Qed.
  Lemma select_spec : StronglySorted prec cands -> exists top, q_select c cands = Ok top /\ list_ok top /\ forall Y, In Y cands -> In Y top \/ reason Y.
  Proof.
    intros Hs. destruct (groups_spec (q_lengths cands) [] []) as (top & E & A & _ & C); auto.
    - split; [intros x []|]. split; [constructor|]. split; [cbn; lia|constructor].
    - unfold q_lengths. eapply Permutation_NoDup; [apply sort_by_perm|apply NoDup_nodup].
    - unfold q_lengths. eapply SS_impl; [|apply (sort_sorted_on (fun _ => True) Nat.ltb)].
      + intros a b K. apply Nat.ltb_ge in K. exact K.
      + intros a b K. apply Nat.ltb_lt in K. apply Nat.ltb_ge. lia.
      + intros a b d _ _ _ K1 K2. apply Nat.ltb_ge in K1, K2. apply Nat.ltb_ge. lia.
      + apply Forall_forall. auto.
    - intros k d _ [].
    - exists top. split; auto. split; auto. intros Y HY. apply C. right. split; auto. unfold q_lengths. apply sort_by_in. apply nodup_In. apply in_map_iff. exists Y; auto.
  Qed.
End Select.
(** * Ranking *)
Section Stable.
  Context {A : Type} (k : A -> nat) (R : A -> A -> Prop).
  Notation lex := (fun a b : A => k b < k a \/ (k b = k a /\ R a b)).
  Lemma insert_lex : forall x l, Forall (R x) l -> StronglySorted lex l -> StronglySorted lex (insert_by (fun a b => k b <? k a) x l).
  Proof.
    intros x l F H. induction H as [|y l H IH Hy]; cbn [insert_by]; [repeat constructor|]. inversion F as [|? ? F1 F2]; subst. destruct (k x <? k y) eqn:E.
    - apply Nat.ltb_lt in E. constructor; auto. apply Forall_forall. intros z Hz. apply (Permutation_in z (Permutation_sym (insert_by_perm _ x l))) in Hz. destruct Hz as [<-|Hz]; [left; auto|]. rewrite Forall_forall in Hy. auto.
    - apply Nat.ltb_ge in E. constructor; [constructor; auto|]. rewrite Forall_forall in *. intros z [<-|Hz].
      + destruct (Nat.eq_dec (k y) (k x)); [right|left]; auto; lia.
      + destruct (Nat.eq_dec (k z) (k x)) as [D|D]; [right; auto|left]. specialize (Hy z Hz). destruct Hy as [Hy|[Hy _]]; lia.
  Qed.
  Lemma sort_lex : forall l, StronglySorted R l -> StronglySorted lex (sort_by (fun a b => k b <? k a) l).
  Proof.
    intros l H. induction H as [|x l H IH F]; cbn [sort_by]; [constructor|]. apply insert_lex; auto. apply Forall_forall. intros z Hz. apply sort_by_in in Hz. rewrite Forall_forall in F. auto.
  Qed.
End Stable.
Lemma ranked_perm : forall c l, Permutation l (q_ranked c l).
Proof. intros c l. unfold q_ranked. eapply Permutation_trans; apply sort_by_perm. Qed.
Lemma ranked_sorted : forall c l, Forall (fun e => is_nan (qp e) = false) l ->
  StronglySorted (fun x y : qentry => q_rank c (snd y) < q_rank c (snd x) \/ (q_rank c (snd y) = q_rank c (snd x) /\ xlt (qp y) (qp x) = false)) (q_ranked c l).
Proof.
  intros c l F. unfold q_ranked. apply (sort_lex (fun e : qentry => q_rank c (snd e)) (fun x y => xlt (qp y) (qp x) = false)).
  apply (sort_sorted_on (fun e => is_nan (qp e) = false)); auto.
  - intros x y. apply xlt_asym.
  - intros x y z Hx Hy Hz H1 H2. apply xlt_nan in H1, H2; auto. apply xlt_nan; auto. apply (xle_trans _ (qp y)); auto.
Qed.
Theorem selection : forall c l, (1 <= q_num c)%Z -> Forall wf_entry l -> NoDup (map fst l) -> exists top, q_select c (q_ranked c l) = Ok top /\ list_ok c l top /\ forall Y, In Y l -> In Y top \/ reason c l Y.
Proof.
  intros c l Hn W N. assert (P := ranked_perm c l).
  assert (W' : Forall wf_entry (q_ranked c l)) by (rewrite Forall_forall in *; intros e He; apply W, (Permutation_in e (Permutation_sym P)); auto).
  destruct (select_spec c Hn (q_ranked c l) W') as (top & E & (A & B & C & D) & G).
  - eapply Permutation_NoDup; [apply Permutation_map, P|auto].
  - apply ranked_sorted. rewrite Forall_forall in *. intros e He. apply W; auto.
  - assert (I : incl (q_ranked c l) l) by (intros e He; apply (Permutation_in e (Permutation_sym P)); auto).
    exists top. split; auto. split; [split; [intros e He; auto|auto]|]. intros Y HY. destruct (G Y (Permutation_in Y P HY)) as [K|K]; auto. right.
    destruct K as [(X & K1 & K2)|[(X & K1 & K2)|[(m & K1 & K2 & K3)|(x & m & K1 & K2 & K3 & K4 & K5 & K6)]]].
    + left. exists X. split; auto.
    + right. left. exists X. split; auto.
    + right. right. left. exists m. split; auto. split; auto. intros e He; auto.
    + right. right. right. exists x, m. repeat (split; auto). intros e He; auto.
Qed.
