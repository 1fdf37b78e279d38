(** The conditional tree of a selector is the tree of the projected database. *)
From Verif Require Export FPGrowthProofs.
From Verif Require Import OrderFacts.
Open Scope list_scope.
Open Scope nat_scope.

(** * Lists *)
Lemma filter_len : forall A (f : A -> bool) l, length (filter f l) <= length l.
Proof. induction l as [|x l IH]; cbn [filter length]; [lia|]. destruct (f x); cbn [length]; lia. Qed.
Lemma ids_entries : forall A k s, exists E,
  ids_from k (paths A) s = map (fun x => k + fst x) E /\
  map snd E = filter (fun e => if selector_eq_dec (lastsel (fst e)) s then true else false) A /\
  Forall (fun x => nth_error A (fst x) = Some (snd x)) E.
Proof.
  induction A as [|[p w] A IH]; intros k s; cbn [paths map ids_from filter fst].
  - exists []. repeat split; constructor.
  - destruct (IH (S k) s) as (E & E1 & E2 & E3). fold (paths A).
    assert (F : Forall (fun x => nth_error ((p, w) :: A) (fst x) = Some (snd x)) (map (fun x => (S (fst x), snd x)) E)).
    { apply Forall_map. eapply Forall_impl; [|exact E3]. intros x H; exact H. }
    assert (M1 : ids_from (S k) (paths A) s = map (fun x => k + fst x) (map (fun x => (S (fst x), snd x)) E)).
    { rewrite E1, map_map. apply map_ext. intros x; cbn [fst]. lia. }
    assert (M2 : map snd (map (fun x : nat * (path * (Z * Z)) => (S (fst x), snd x)) E) = filter (fun e => if selector_eq_dec (lastsel (fst e)) s then true else false) A).
    { rewrite map_map. cbn [snd]. exact E2. }
    destruct (selector_eq_dec (lastsel p) s).
    + exists ((0, (p, w)) :: map (fun x => (S (fst x), snd x)) E). cbn [map fst snd]. rewrite M1, M2. repeat split; auto. f_equal; lia.
    + exists (map (fun x => (S (fst x), snd x)) E). auto.
Qed.
Lemma paths_length : forall ps p, valid ps -> p = [] \/ In p ps -> length p <= length ps.
Proof.
  intros ps p (ND & NE & PC & F) Ip.
  assert (C : forall i, 0 < i <= length p -> In (firstn i p) ps).
  { intros i Hi. remember (length p - i) as d eqn:Hd. revert i Hi Hd. induction d as [|d IHd]; intros i Hi Hd.
    - replace i with (length p) by lia. rewrite firstn_all. destruct Ip as [->|Ip]; auto. cbn in Hi; lia.
    - specialize (IHd (S i) ltac:(lia) ltac:(lia)).
      assert (exists x, firstn (S i) p = firstn i p ++ [x]) as [x Ex].
      { clear -Hi Hd. revert i Hi Hd. induction p as [|y p IH]; intros i Hi Hd; [cbn in *; lia|].
        destruct i as [|i]; [lia|]. destruct i as [|i].
        - destruct p as [|z p]; [cbn in Hd; lia|]. exists z; reflexivity.
        - destruct (IH (S i) ltac:(cbn in *; lia) ltac:(cbn in *; lia)) as [x Ex]. exists x. cbn [firstn app] in *. rewrite Ex. reflexivity. }
      rewrite Ex in IHd. apply PC in IHd. destruct IHd as [Z|]; auto. exfalso.
      assert (length (firstn i p) = i) by (apply firstn_length_le; lia). rewrite Z in H; cbn in H; lia. }
  assert (Q : length p = length (map (fun i => firstn (S i) p) (seq 0 (length p)))) by (rewrite map_length, seq_length; auto).
  rewrite Q.
  apply NoDup_incl_length.
  - assert (G : forall i j, i < length p -> j < length p -> firstn (S i) p = firstn (S j) p -> i = j).
    { intros i j Hi Hj E. apply (f_equal (@length _)) in E. rewrite !firstn_length_le in E by lia. lia. }
    assert (N : NoDup (seq 0 (length p))) by apply seq_NoDup.
    assert (I : forall i, In i (seq 0 (length p)) -> i < length p) by (intros i I; apply in_seq in I; lia).
    revert N I. generalize (seq 0 (length p)). induction l as [|i l IH]; intros N I; cbn [map]; constructor.
    + intros X. apply in_map_iff in X. destruct X as (j & E & J). apply G in E; [|apply I; right; auto|apply I; left; auto].
      subst. inversion N; contradiction.
    + inversion N; subst. apply IH; auto. intros; apply I; right; auto.
  - intros q Iq. apply in_map_iff in Iq. destruct Iq as (i & <- & I). apply in_seq in I. apply C. lia.
Qed.
Lemma before_split : forall s l, In s l -> exists r, l = before s l ++ s :: r.
Proof.
  induction l as [|x l IH]; intros I; [destruct I|]. cbn [before]. destruct (selector_eq_dec x s) as [->|N].
  - exists l; auto.
  - destruct I as [|I]; [contradiction|]. destruct (IH I) as [r Hr]. exists r. cbn [app]. congruence.
Qed.

Section Cond.
  Variable U : selector -> Prop.
  Hypothesis U_nominal : forall s, U s -> nominal s.
  Hypothesis U_key : forall s t, U s -> U t -> skey s = skey t -> s = t.
  Variable ok : Z -> Z -> bool.
  Hypothesis ok_mono : forall a b a' b', (a <= a' -> b <= b' -> ok a b = true -> ok a' b' = true)%Z.

  Definition nonempty (e : path * (Z * Z)) : bool := match fst e with [] => false | _ => true end.
  Definition bumps (B : db) : list (selector * (Z * Z)) := flat_map (fun e => map (fun s => (s, snd e)) (rev (fst e))) B.

  Lemma base_steps : forall t A, represents t A -> (forall p x, In p (paths A) -> In x p -> U x) ->
    forall E base L acc, Forall (fun x => nth_error A (fst x) = Some (snd x)) E ->
    (forall e, In e L -> U (fst e)) -> bumped L acc ->
    let B := map (fun x => (removelast (fst (snd x)), snd (snd x))) E in
    exists acc', fold_res (base_step (t_nodes t)) (map (fun x => 1 + fst x) E) (base, acc) = Ok (base ++ filter nonempty B, acc') /\
      bumped (L ++ bumps B) acc'.
  Proof.
    intros t A R HU. pose proof R as ((ND & NE & PC & F) & Len & _ & N & _).
    induction E as [|[i [p w]] E IH]; intros base L acc HE HL HB; cbn [map fold_res filter].
    - exists acc. unfold bumps. cbn. rewrite !app_nil_r. auto.
    - inversion HE as [|? ? Hi HE']; subst. cbn [fst snd] in *.
      assert (Ip : In p (paths A)). { apply nth_error_In in Hi. unfold paths. change p with (fst (p, w)). apply in_map; auto. }
      assert (Np : p <> []) by congruence.
      assert (Ir : removelast p = [] \/ In (removelast p) (paths A)).
      { apply (PC _ (lastsel p)). rewrite <- path_split; auto. }
      assert (exists c', pid (paths A) (removelast p) = Some c') as [c' Ec'].
      { destruct Ir as [-> |Ir]; [exists 0; auto|]. destruct (In_nth_error _ _ Ir) as [j Hj]. exists (S j). apply pid_node; auto. congruence. }
      change (1 + i) with (S i). unfold base_step at 1. rewrite (N _ _ _ Hi). cbn [node_of nd_parent nd_tp nd_fp]. rewrite Ec'.
      rewrite (path_up_spec t A R (length (t_nodes t)) (removelast p) c' Ir Ec').
      2:{ rewrite Len. pose proof (paths_length (paths A) (removelast p)). unfold paths in H at 3. rewrite map_length in H.
          unfold valid in H. specialize (H ltac:(auto) Ir). lia. }
      cbn [bind].
      assert (HUr : forall x, In x (rev (removelast p)) -> U x).
      { intros x Ix. apply in_rev in Ix. apply (HU p); auto. rewrite (path_split p Np). apply in_or_app; auto. }
      pose proof (bumped_fold U U_key (rev (removelast p)) L acc w HL HUr HB) as HB'.
      assert (HL' : forall e, In e (L ++ map (fun s => (s, w)) (rev (removelast p))) -> U (fst e)).
      { intros e Ie. apply in_app_or in Ie. destruct Ie as [Ie|Ie]; auto. apply in_map_iff in Ie. destruct Ie as (x & <- & Ix); auto. }
      destruct (IH (match rev (removelast p) with [] => base | _ => base ++ [(rev (rev (removelast p)), (fst w, snd w))] end)
                  _ _ HE' HL' HB') as (acc' & E1 & E2).
      exists acc'. split.
      + rewrite E1. f_equal. f_equal. rewrite rev_involutive, <- surjective_pairing.
        unfold nonempty at 2. cbn [fst]. destruct (removelast p) as [|y r] eqn:Er.
        * reflexivity.
        * destruct (rev (y :: r)) eqn:Erv. { apply (f_equal (@length _)) in Erv. rewrite rev_length in Erv. discriminate. }
          rewrite <- app_assoc. reflexivity.
      + unfold bumps in *. cbn [flat_map fst snd]. rewrite app_assoc. exact E2.
  Qed.
  Lemma bsum_bumps : forall k B x, (forall e, In e B -> NoDup (fst e)) -> bsum k (bumps B) x = cnt k B [x].
  Proof.
    intros k B x H. unfold cnt. induction B as [|[p w] B IH]; [reflexivity|].
    unfold bumps. cbn [flat_map asum]. rewrite bsum_app. fold (bumps B). rewrite IH by (intros; apply H; right; auto).
    f_equal. cbn [fst snd]. specialize (H (p, w) (or_introl eq_refl)). cbn in H.
    assert (ND : NoDup (rev p)) by (apply NoDup_rev; auto).
    unfold subb; cbn [forallb]. rewrite andb_true_r.
    replace (inb x p) with (inb x (rev p)).
    2:{ destruct (inb x p) eqn:Q; [apply inb_true in Q; apply inb_true, in_rev; rewrite rev_involutive; auto|].
        apply inb_false in Q; apply inb_false; intros I; apply in_rev in I; auto. }
    revert ND. generalize (rev p) as l. induction l as [|y l IHl]; intros ND; cbn [map bsum fold_right fst snd]; [reflexivity|].
    inversion ND; subst. fold (bsum k (map (fun s => (s, w)) l) x). rewrite IHl by auto.
    destruct (selector_eq_dec y x) as [->|Ny].
    - replace (inb x (x :: l)) with true by (symmetry; apply inb_true; left; auto).
      replace (inb x l) with false by (symmetry; apply inb_false; auto). lia.
    - destruct (inb x l) eqn:Q.
      + replace (inb x (y :: l)) with true; [lia|]. symmetry. apply inb_true in Q. apply inb_true; right; auto.
      + replace (inb x (y :: l)) with false; [lia|]. symmetry. apply inb_false in Q. apply inb_false; intros [|]; auto.
  Qed.

  (** * Databases *)
  Definition weight_ok (w : Z * Z) : Prop := (0 <= fst w /\ 0 <= snd w /\ 0 < fst w + snd w)%Z.
  Definition order (lt : selector -> selector -> Prop) : Prop :=
    (forall x, ~ lt x x) /\ (forall x y z, lt x y -> lt y z -> lt x z).
  Definition good (lt : selector -> selector -> Prop) (D : db) : Prop :=
    order lt /\
    (forall e x, In e D -> In x (fst e) -> U x) /\ (forall e, In e D -> weight_ok (snd e)) /\
    (forall e, In e D -> StronglySorted lt (fst e)) /\
    (forall e x, In e D -> In x (fst e) -> ok (cnt true D [x]) (cnt false D [x]) = true).
  Definition hn (D : db) (x : selector) : Z := cn D [x].
  Definition tree_for (t : fptree) (D : db) : Prop :=
    represents t (build D) /\ t_sorted t = sort_by (fun x y => (hn D x <? hn D y)%Z) (keys (paths (build D))).
  Definition itemset (D : db) (Y : list selector) : Prop :=
    Y <> [] /\ NoDup Y /\ (0 < cn D Y)%Z /\ ok (cnt true D Y) (cnt false D Y) = true.

  Lemma good_nodup : forall lt D, good lt D -> forall e, In e D -> NoDup (fst e).
  Proof. intros lt D ((I & _) & _ & _ & H & _) e Ie. apply (SS_NoDup lt); auto. Qed.
  Lemma asum_nonneg : forall k Q D, (forall e, In e D -> weight_ok (snd e)) -> (0 <= asum k Q D)%Z.
  Proof.
    induction D as [|[p w] D IH]; intros H; cbn [asum]; [lia|].
    specialize (IH ltac:(intros; apply H; right; auto)). pose proof (H (p, w) (or_introl eq_refl)) as (X & Y & _). cbn in X, Y.
    destruct k; cbn [pr]; destruct (Q p); lia.
  Qed.
  Lemma asum_le : forall k Q Q' D, (forall e, In e D -> weight_ok (snd e)) -> (forall e, In e D -> Q (fst e) = true -> Q' (fst e) = true) ->
    (asum k Q D <= asum k Q' D)%Z.
  Proof.
    induction D as [|[p w] D IH]; intros H HQ; cbn [asum]; [lia|].
    specialize (IH ltac:(intros; apply H; right; auto) ltac:(intros e Ie; apply HQ; right; auto)).
    pose proof (H (p, w) (or_introl eq_refl)) as (X & Y & _). cbn in X, Y.
    pose proof (HQ (p, w) (or_introl eq_refl)) as Z. cbn in Z.
    destruct (Q p); [rewrite (Z eq_refl); lia|]. destruct k; cbn [pr]; destruct (Q' p); lia.
  Qed.
  Lemma cnt_pos : forall D Q, (forall e, In e D -> weight_ok (snd e)) ->
    ((0 < asum true Q D + asum false Q D)%Z <-> exists e, In e D /\ Q (fst e) = true).
  Proof.
    induction D as [|[p w] D IH]; intros Q H; cbn [asum]; [split; [lia|intros (e & [] & _)]|].
    assert (H' : forall e, In e D -> weight_ok (snd e)) by (intros; apply H; right; auto).
    pose proof (asum_nonneg true Q D H'). pose proof (asum_nonneg false Q D H').
    pose proof (H (p, w) (or_introl eq_refl)) as (X & Y & Z). cbn in X, Y, Z. specialize (IH Q H').
    destruct (Q p) eqn:E; cbn [pr].
    - split; [intros _; exists (p, w); split; [left|]; auto|lia].
    - split.
      + intros G. destruct (proj1 IH ltac:(lia)) as (e & Ie & Qe). exists e; split; auto. right; auto.
      + intros (e & [<-|Ie] & Qe); [cbn in Qe; congruence|]. cut (0 < asum true Q D + asum false Q D)%Z; [lia|]. apply IH. exists e; auto.
  Qed.

  Lemma header_tree : forall lt t D s, good lt D -> tree_for t D -> nominal s ->
    sel_assoc s (t_header t) = if in_dec selector_eq_dec s (keys (paths (build D)))
      then Some (HE (cnt true D [s]) (cnt false D [s]) (hd 0 (ids (paths (build D)) s)) (last (ids (paths (build D)) s) 0)) else None.
  Proof.
    intros lt t D s G (R & _) Hs. rewrite (header_lookup t (build D) s R Hs). destruct (in_dec _ _ _); auto. f_equal.
    assert (X : forall k, asum k (fun p => if selector_eq_dec (lastsel p) s then true else false) (build D) = cnt k D [s]).
    { intros k. transitivity (asum k (ends s (fun _ => true)) (build D)).
      - apply asum_ext. intros e _. unfold ends. reflexivity.
      - rewrite asum_ends_build by (apply (good_nodup lt); auto). unfold cnt. apply asum_ext. intros e _. reflexivity. }
    rewrite !X. reflexivity.
  Qed.
  Lemma finish_header_sorted : forall t A, represents t A -> represents (finish_header t) A.
  Proof. intros t A R. exact R. Qed.
  Lemma sort_by_ext : forall A (f g : A -> A -> bool) l, (forall x y, In x l -> In y l -> f x y = g x y) -> sort_by f l = sort_by g l.
  Proof.
    induction l as [|x l IH]; intros H; cbn [sort_by]; auto. rewrite IH by (intros; apply H; right; auto).
    assert (G : forall y, In y (sort_by g l) -> f y x = g y x).
    { intros y Iy. apply sort_by_in in Iy. apply H; [right; auto|left; auto]. }
    revert G. generalize (sort_by g l). induction l0 as [|y m IHm]; intros G; cbn [insert_by]; auto.
    rewrite G by (left; auto). rewrite IHm by (intros; apply G; right; auto). reflexivity.
  Qed.
  Lemma finish_tree : forall lt t D, good lt D -> represents t (build D) -> tree_for (finish_header t) D.
  Proof.
    intros lt t D G R. split; [exact R|]. cbn [finish_header t_sorted].
    assert (E : map fst (t_header t) = keys (paths (build D))).
    { destruct R as (_ & _ & _ & _ & ->). unfold header_of. rewrite map_map. cbn [fst]. apply map_id. }
    rewrite E. apply sort_by_ext.
    assert (H : forall x, In x (keys (paths (build D))) -> header_n t x = hn D x).
    { intros x Ix. unfold header_n.
      assert (Hx : nominal x). { apply keys_build in Ix. destruct Ix as (e & Ie & Ix). destruct G as (_ & GU & _). apply U_nominal, (GU e); auto. }
      pose proof (header_tree lt (finish_header t) D x G) as Q. 
      rewrite (header_lookup t (build D) x R Hx). destruct (in_dec _ _ _); [|contradiction]. cbn [he_tp he_fp]. unfold hn, cn.
      assert (X : forall k, asum k (fun p => if selector_eq_dec (lastsel p) x then true else false) (build D) = cnt k D [x]).
      { intros k. transitivity (asum k (ends x (fun _ => true)) (build D)).
        - apply asum_ext. intros e _. unfold ends. reflexivity.
        - rewrite asum_ends_build by (apply (good_nodup lt); auto). unfold cnt. apply asum_ext. intros e _. reflexivity. }
      rewrite !X. reflexivity. }
    intros x y Ix Iy. rewrite !H by auto. reflexivity.
  Qed.

  (** * The projection *)
  (** Rows of [D] that contain [s], cut before [s]. *)
  Definition cpr (k : bool) (D : db) (s : selector) (Y : list selector) : Z :=
    asum k (fun t => inb s t && subb Y (before s t)) D.
  Lemma asum_map_fst : forall k Q (g : path -> path) (D : db), asum k Q (map (fun e => (g (fst e), snd e)) D) = asum k (fun p => Q (g p)) D.
  Proof. induction D as [|[p w] D IH]; cbn [map asum fst snd]; congruence. Qed.
  Lemma asum_filter_nonempty : forall k Q D, Q [] = false -> asum k Q (filter nonempty D) = asum k Q D.
  Proof.
    induction D as [|[p w] D IH]; intros H; cbn [filter asum]; auto. unfold nonempty at 1; cbn [fst].
    destruct p; cbn [asum]; rewrite IH; auto. rewrite H. lia.
  Qed.
  Lemma subb_nil : forall Y, Y <> [] -> subb Y [] = false.
  Proof. destruct Y; intros H; [contradiction|]. reflexivity. Qed.
  Lemma build_in : forall D p w, In (p, w) (build D) -> (forall e, In e D -> weight_ok (snd e)) -> weight_ok w.
  Proof.
    intros D p w I H.
    assert (Ga : forall A q v, weight_ok v -> (forall e, In e A -> weight_ok (snd e)) -> forall e, In e (abump A q v) -> weight_ok (snd e)).
    { induction A as [|[r u] A IH]; intros q v Hv HA e Ie; cbn [abump] in Ie.
      - destruct Ie as [<-|[]]; auto.
      - destruct (path_eq_dec r q).
        + destruct Ie as [<-|Ie]; [|apply HA; right; auto]. specialize (HA _ (or_introl eq_refl)). cbn [snd] in *.
          unfold weight_ok, padd in *; cbn [fst snd]; lia.
        + destruct Ie as [<-|Ie]; [apply (HA _ (or_introl eq_refl))|]. apply (IH q v); auto. intros; apply HA; right; auto. }
    assert (Gi : forall l A pre v, weight_ok v -> (forall e, In e A -> weight_ok (snd e)) -> forall e, In e (ainsert A pre l v) -> weight_ok (snd e)).
    { induction l as [|s l IH]; intros A pre v Hv HA e Ie; cbn [ainsert] in Ie; auto. revert Ie. apply IH; auto. apply Ga; auto. }
    assert (Gb : forall D A, (forall e, In e D -> weight_ok (snd e)) -> (forall e, In e A -> weight_ok (snd e)) -> forall e, In e (build_from A D) -> weight_ok (snd e)).
    { clear -Gi. induction D as [|d D IH]; intros A HD HA e Ie; cbn [build_from fold_left] in Ie; auto.
      revert Ie. change (fold_left _ D ?X) with (build_from X D). apply IH; [intros; apply HD; right; auto|].
      apply Gi; auto. apply HD; left; auto. }
    apply (Gb D [] H ltac:(intros e []) (p, w) I).
  Qed.
  (** The tree built from any part [E] of the nodes of [s]. *)
  Definition base_of (E : list (nat * (path * (Z * Z)))) : db := map (fun x => (removelast (fst (snd x)), snd (snd x))) E.
  Lemma conditional_base : forall lt t D s E, good lt D -> tree_for t D -> In s (keys (paths (build D))) ->
    Forall (fun x => nth_error (build D) (fst x) = Some (snd x)) E -> (forall x, In x E -> lastsel (fst (snd x)) = s) ->
    exists ct D' lt', conditional_from t (map (fun x => 1 + fst x) E) ok = Ok ct /\ good lt' D' /\ tree_for ct D' /\
      (forall x, In x (keys (paths (build D'))) -> In x (keys (paths (build D))) /\ x <> s) /\
      (forall k Y, itemset D' Y -> cnt k D' Y = cnt k (base_of E) Y) /\
      (forall Y, itemset D' Y <-> Y <> [] /\ NoDup Y /\ (0 < cnt true (base_of E) Y + cnt false (base_of E) Y)%Z /\
                                  ok (cnt true (base_of E) Y) (cnt false (base_of E) Y) = true) /\
      (forall k Y, Y <> [] -> incl Y (keys (paths (build D'))) -> (forall y, In y Y -> lt y s) /\ cnt k D' Y = cnt k (base_of E) Y).
  Proof.
    intros lt t D s E G T Is E3 El0. pose proof T as (R & _).
    pose proof G as ((Irr & Tra) & GU & GW & GS & GO).
    unfold conditional_from.
    assert (HU : forall p x, In p (paths (build D)) -> In x p -> U x).
    { intros p x Ip Ix. apply paths_build in Ip. destruct Ip as (_ & e & Ie & r & Er). apply (GU e); auto. rewrite Er; apply in_or_app; auto. }
    destruct (base_steps t (build D) R HU E [] [] ([], 0%Z) E3) as (acc & F1 & F2); [intros e []|apply bumped_nil|].
    cbv zeta in F1, F2.
    match goal with |- context [fold_res ?f ?l ?i] => assert (FF : fold_res f l i = _) by exact F1; rewrite FF; clear FF end. cbn [bind app]. clear F1.
    fold (base_of E) in *. set (B := base_of E) in *. cbn [app] in F2.
    assert (HB : forall e, In e B -> exists e0, In e0 D /\ prefix (fst e ++ [s]) (fst e0) /\ weight_ok (snd e)).
    { intros e Ie. unfold B, base_of in Ie. apply in_map_iff in Ie. destruct Ie as ([i [p w]] & <- & Ip). cbn [fst snd] in *.
      pose proof (El0 _ Ip) as El. cbn [fst snd] in El. rewrite Forall_forall in E3. pose proof (E3 _ Ip) as En. cbn [fst snd] in En. apply nth_error_In in En.
      assert (Ip' : In p (paths (build D))) by (unfold paths; change p with (fst (p, w)); apply in_map; auto).
      apply paths_build in Ip'. destruct Ip' as (Np & e0 & Ie0 & P). exists e0. split; auto. split.
      - rewrite <- El, <- path_split; auto.
      - apply (build_in D p w); auto. }
    assert (HBs : forall e, In e B -> StronglySorted lt (fst e) /\ (forall x, In x (fst e) -> U x /\ lt x s) /\ NoDup (fst e)).
    { intros e Ie. destruct (HB e Ie) as (e0 & Ie0 & (r & Er) & _). pose proof (GS e0 Ie0) as S0. rewrite Er in S0.
      rewrite <- app_assoc in S0.
      assert (SSapp : forall l1 l2, StronglySorted lt (l1 ++ l2) -> StronglySorted lt l1 /\ forall x y, In x l1 -> In y l2 -> lt x y).
      { clear. induction l1 as [|a l1 IH]; intros l2 SS; cbn [app] in SS; [split; [constructor|intros x y []]|].
        inversion SS as [|? ? SS' F]; subst. destruct (IH l2 SS') as [A1 A2]. rewrite Forall_forall in F. split.
        - constructor; auto. apply Forall_forall. intros; apply F, in_or_app; auto.
        - intros x y [<-|Ix] Iy; [apply F, in_or_app; auto|apply A2; auto]. }
      destruct (SSapp _ _ S0) as [S1 S2]. split; auto. split; [|apply (SS_NoDup lt); auto].
      intros x Ix. split; [apply (GU e0); auto; rewrite Er; apply in_or_app; left; apply in_or_app; auto|].
      apply S2; auto. left; auto. }
    destruct acc as [dall o]. destruct F2 as (ks & ordf & NDk & Kk & O1 & O2 & Ed). cbn [fst snd] in *.
    assert (HUk : forall x, In x ks -> U x).
    { intros x Ix. apply Kk in Ix. apply in_map_iff in Ix. destruct Ix as (e & <- & Ie). unfold bumps in Ie. apply in_flat_map in Ie.
      destruct Ie as (b & Ib & Ie). apply in_map_iff in Ie. destruct Ie as (y & <- & Iy). cbn [fst]. apply in_rev in Iy. apply (HBs b); auto. }
    rewrite Ed, prune_dict_spec.
    set (f := bsum true (bumps B)) in *. set (g := bsum false (bumps B)) in *.
    set (ks' := filter (fun x => ok (f x) (g x)) ks).
    set (d := dict_of f g ordf ks').
    assert (Hks' : forall x, In x ks' -> In x ks) by (intros x Ix; apply filter_In in Ix; tauto).
    set (tr := fun p : path => sort_transaction d (valid_selectors d p)).
    set (D' := map (fun e => (tr (fst e), snd e)) (filter nonempty B)).
    set (lt' := ltd (fun x => f x + g x)%Z ordf).
    assert (Htr : forall e, In e B -> Permutation (filter (fun x => inb x ks') (fst e)) (tr (fst e)) /\ StronglySorted lt' (tr (fst e))).
    { intros e Ie. unfold tr, d. destruct (HBs e Ie) as (S1 & S2 & S3).
      rewrite (valid_selectors_spec U U_key) by (auto; intros x Ix; apply S2; auto).
      apply (sort_transaction_spec U U_key); auto.
      - apply NoDup_filter; auto.
      - intros x Ix. apply filter_In in Ix. apply inb_true; tauto. }
    assert (Hin : forall e x, In e B -> (In x (tr (fst e)) <-> In x (fst e) /\ In x ks')).
    { intros e x Ie. destruct (Htr e Ie) as [P _]. split.
      - intros Ix. apply (Permutation_in x (Permutation_sym P)) in Ix. apply filter_In in Ix. rewrite inb_true in Ix. auto.
      - intros Ix. apply (Permutation_in x P). apply filter_In. rewrite inb_true. auto. }
    assert (HD' : forall e', In e' D' <-> exists e, In e B /\ fst e <> [] /\ e' = (tr (fst e), snd e)).
    { intros e'. unfold D'. rewrite in_map_iff. split.
      - intros (e & <- & Ie). apply filter_In in Ie. destruct Ie as [Ie Ne]. exists e. split; auto. split; auto. unfold nonempty in Ne. destruct (fst e); discriminate.
      - intros (e & Ie & Ne & ->). exists e. split; auto. apply filter_In. split; auto. unfold nonempty. destruct (fst e); auto. }
    assert (WB : forall e, In e B -> weight_ok (snd e)) by (intros e Ie; destruct (HB e Ie) as (? & _ & _ & W); auto).
    (* counts *)
    assert (C1 : forall k Y, Y <> [] -> incl Y ks' -> cnt k D' Y = cnt k B Y).
    { intros k Y NY IY. unfold cnt, D'. rewrite (asum_map_fst k (subb Y) tr).
      rewrite <- (asum_filter_nonempty k (subb Y) B) by (apply subb_nil; auto).
      apply asum_ext. intros e Ie. apply filter_In in Ie. destruct Ie as [Ie _].
      assert (Q : subb Y (tr (fst e)) = true <-> subb Y (fst e) = true).
      { rewrite !subb_true. split; intros H y Iy; specialize (H y Iy); apply (Hin e y Ie) in H || apply (Hin e y Ie); tauto || (split; auto). }
      destruct (subb Y (tr (fst e))), (subb Y (fst e)); auto; [symmetry|]; apply Q; auto. }
    assert (C2 : forall x, In x ks -> f x = cnt true B [x] /\ g x = cnt false B [x]).
    { intros x _. unfold f, g. rewrite !bsum_bumps by (intros e Ie; apply HBs; auto). auto. }
    assert (Hks : forall x, In x ks <-> exists e, In e B /\ In x (fst e)).
    { intros x. rewrite Kk, in_map_iff. unfold bumps. split.
      - intros (e & <- & Ie). apply in_flat_map in Ie. destruct Ie as (b & Ib & Ie). apply in_map_iff in Ie. destruct Ie as (y & <- & Iy).
        apply in_rev in Iy. eauto.
      - intros (e & Ie & Ix). exists (x, snd e). split; auto. apply in_flat_map. exists e; split; auto. apply in_map_iff. exists x; split; auto. apply in_rev; rewrite rev_involutive; auto. }
    assert (GD' : good lt' D').
    { split; [split; [intros x; apply ltd_irrefl|intros x y z; apply ltd_trans]|]. split; [|split; [|split]].
      - intros e x Ie Ix. apply HD' in Ie. destruct Ie as (b & Ib & _ & ->). cbn [fst] in Ix. apply (Hin b x Ib) in Ix. apply HUk, Hks'; tauto.
      - intros e Ie. apply HD' in Ie. destruct Ie as (b & Ib & _ & ->). cbn [snd]. auto.
      - intros e Ie. apply HD' in Ie. destruct Ie as (b & Ib & _ & ->). cbn [fst]. apply Htr; auto.
      - intros e x Ie Ix. apply HD' in Ie. destruct Ie as (b & Ib & _ & ->). cbn [fst] in Ix. apply (Hin b x Ib) in Ix. destruct Ix as [_ Ix].
        rewrite !C1 by (discriminate || (intros y [<-|[]]; auto)). pose proof Ix as Ix'. apply filter_In in Ix'. destruct Ix' as [Ixk Ok].
        destruct (C2 x Ixk) as [<- <-]. exact Ok. }
    assert (FI : exists t', fold_res (fun t' e => insert_path t' 0 (sort_transaction d (valid_selectors d (fst e))) (fst (snd e)) (snd (snd e))) (filter nonempty B) empty_tree = Ok t' /\ represents t' (build D')).
    { destruct (fold_insert_represents D' empty_tree [] represents_empty) as (t' & F1 & F2).
      - intros e Ie. apply Forall_forall. intros x Ix. destruct GD' as (_ & HUD & _). apply U_nominal, (HUD e); auto.
      - exists t'. split; [|exact F2]. unfold D' in F1. rewrite fold_res_map in F1. exact F1. }
    destruct FI as (t' & F1 & F2). rewrite F1. cbn [bind].
    exists (finish_header t'), D', lt'. split; [reflexivity|]. split; auto. split; [apply (finish_tree lt'); auto|].
    assert (IC : forall Y, Y <> [] -> (0 < cn D' Y)%Z -> incl Y ks').
    { intros Y NY P. unfold cn, cnt in P. apply cnt_pos in P.
      - destruct P as (e & Ie & Se). apply HD' in Ie. destruct Ie as (b & Ib & _ & ->). cbn [fst] in Se. rewrite subb_true in Se.
        intros y Iy. specialize (Se y Iy). apply (Hin b y Ib) in Se. tauto.
      - apply GD'. }
    split; [|split; [|split]].
    - intros x Ix. apply keys_build in Ix. destruct Ix as (e & Ie & Ix). apply HD' in Ie. destruct Ie as (b & Ib & _ & ->). cbn [fst] in Ix.
      apply (Hin b x Ib) in Ix. destruct Ix as [Ix _]. split.
      + destruct (HB b Ib) as (e0 & Ie0 & (r & Er) & _). apply keys_build. exists e0; split; auto. rewrite Er. apply in_or_app; left; apply in_or_app; auto.
      + intros ->. destruct (HBs b Ib) as (_ & X & _). destruct (X s Ix) as [_ L]. apply (Irr s L).
    - intros k Y (NY & _ & P & _). apply C1; auto.
    - intros Y. split.
      + intros (NY & NDY & P & Ok). pose proof (IC Y NY P) as IY. unfold cn in P. rewrite !C1 in P, Ok by auto. auto.
      + intros (NY & NDY & P & Ok).
        assert (IY : incl Y ks').
        { intros y Iy. apply filter_In. 
          assert (P' : (0 < cnt true B Y + cnt false B Y)%Z) by exact P.
          apply cnt_pos in P'; auto. destruct P' as (b & Ib & Sb). rewrite subb_true in Sb.
          assert (Iyk : In y ks) by (apply Hks; exists b; split; auto). split; auto.
          destruct (C2 y Iyk) as [-> ->].
          assert (M : forall k, (cnt k B Y <= cnt k B [y])%Z).
          { intros k. unfold cnt. apply asum_le; auto. intros e Ie Q. rewrite subb_true in *. intros z [<-|[]]. auto. }
          apply (ok_mono _ _ _ _ (M true) (M false) Ok). }
        unfold itemset, cn. rewrite !C1 by auto. auto.
    - intros k Y NY IY.
      assert (H : forall y, In y Y -> In y ks' /\ lt y s).
      { intros y Iy. apply IY in Iy. apply keys_build in Iy. destruct Iy as (e & Ie & Ix). apply HD' in Ie. destruct Ie as (b & Ib & _ & ->). cbn [fst] in Ix.
        apply (Hin b y Ib) in Ix. destruct Ix as [Ix Ik]. split; auto. apply (HBs b Ib); auto. }
      split; [intros y Iy; apply H; auto|]. apply C1; auto. intros y Iy; apply H; auto.
  Qed.
  Lemma conditional_spec : forall lt t D s alpha mins_tp mins_fp mins_n, good lt D -> tree_for t D -> In s (keys (paths (build D))) ->
    thresholds mins_tp mins_fp mins_n = Ok ok ->
    exists ct D' lt', generate_conditional_fp_tree t (s :: alpha) mins_tp mins_fp mins_n = Ok ct /\ good lt' D' /\ tree_for ct D' /\
      (forall x, In x (keys (paths (build D'))) -> In x (keys (paths (build D))) /\ x <> s) /\
      (forall k Y, itemset D' Y -> cnt k D' Y = cpr k D s Y) /\
      (forall Y, itemset D' Y <-> Y <> [] /\ NoDup Y /\ (0 < cpr true D s Y + cpr false D s Y)%Z /\ ok (cpr true D s Y) (cpr false D s Y) = true) /\
      (forall k Y, Y <> [] -> incl Y (keys (paths (build D'))) -> (forall y, In y Y -> lt y s) /\ cnt k D' Y = cpr k D s Y).
  Proof.
    intros lt t D s alpha mtp mfp mn G T Is Hok. pose proof T as (R & _).
    pose proof G as ((Irr & Tra) & GU & GW & GS & GO).
    assert (Us : U s). { apply keys_build in Is. destruct Is as (e & Ie & Ix). apply (GU e); auto. }
    unfold generate_conditional_fp_tree. rewrite Hok. cbn [bind].
    rewrite (header_tree lt t D s G T (U_nominal s Us)). destruct (in_dec _ _ _) as [_|]; [|contradiction]. cbn [he_first].
    pose proof (proj1 (ids_nonempty _ _) Is) as Nids.
    assert (hd_error (ids (paths (build D)) s) = Some (hd 0 (ids (paths (build D)) s))) as Hhd.
    { destruct (ids (paths (build D)) s); [contradiction|reflexivity]. }
    rewrite <- Hhd.
    destruct (ids_entries (build D) 1 s) as (E & E1 & E2 & E3). fold (ids (paths (build D)) s) in E1.
    assert (Llen : length (ids (paths (build D)) s) <= length (t_nodes t)).
    { destruct R as (_ & L & _). rewrite L, E1, map_length, <- (map_length snd E), E2.
      etransitivity; [apply filter_len|lia]. }
    rewrite (horizontal_spec t (build D) s R _ [] _ eq_refl Llen). cbn [bind].
    rewrite E1.
    assert (El0 : forall x, In x E -> lastsel (fst (snd x)) = s).
    { intros x Ix. assert (I2 : In (snd x) (map snd E)) by (apply in_map; auto). rewrite E2 in I2. apply filter_In in I2.
      destruct I2 as [_ I2]. destruct (selector_eq_dec _ s); [auto|discriminate]. }
    destruct (conditional_base lt t D s E G T Is E3 El0) as (ct & D' & lt' & H1 & H2 & H3 & H4 & H5 & H6 & H7).
    assert (EB : base_of E = proj_base s (build D)) by (unfold proj_base, base_of; rewrite <- E2, map_map; reflexivity).
    assert (C0 : forall k Y, Y <> [] -> cnt k (base_of E) Y = cpr k D s Y).
    { intros k Y NY. rewrite EB. unfold cnt. rewrite asum_proj_base. apply asum_ends_build. apply (good_nodup lt); auto. }
    exists ct, D', lt'. split; auto. split; auto. split; auto. split; auto. split; [|split].
    - intros k Y HY. rewrite H5 by auto. apply C0. apply HY.
    - intros Y. rewrite H6. split; intros (N & H); rewrite !C0 in * by auto; auto.
    - intros k Y NY IY. destruct (H7 k Y NY IY) as [A B]. split; auto. rewrite B. apply C0; auto.
  Qed.
End Cond.
