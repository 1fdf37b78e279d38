(** C82: the list of best subgroups of BSD, CBSD and CPBSD, one evaluated description at a time. *)
From Verif Require Export BSDModel BSDProofs BSDSteps Properties_BSD.
From Verif Require Import QualityModel QualitySpec Properties_Quality OrderFacts MiningProofs Properties_SDMap Properties_SDMapStar Properties_VLSD Properties_BSDBest.
Open Scope string_scope.
Open Scope list_scope.
Open Scope Z_scope.

(** * Specification *)
Section Spec.
  Context {V : Type}.
  Variable c : bsd_config V.
  Variable df : dataframe.
  Variables tcol tval : string.
  Let t := Sel tcol EQUAL (VStr tval).
  (** The list when the [i]-th description is evaluated: the list after the previous one; at the start, the initial element alone. *)
  Definition list_at (log : list (pattern * list (bsd_entry V))) (i : nat) : list (bsd_entry V) :=
    match i with O => [dummy_entry c] | S j => match nth_error log j with Some (_, k) => k | None => [] end end.
  (** The list holds num_subgroups elements. *)
  Definition full (k : list (bsd_entry V)) : Prop := bc_num c <= Z.of_nat (length k).
  (** The value [v] is enough to enter the list when it is full and [worst] is its lowest quality: BSD wants more, the other two at least as much. *)
  Definition reaches (v worst : V) : Prop := match bc_class c with BSD => bc_lt c worst v = true | _ => bc_lt c v worst = false end.
  (** No row speaks for [X] against [Y]: BSD compares the rows with the target and the rows without it, CBSD all the rows, CPBSD the rows with the target. *)
  Definition covered (X Y : pattern) : Prop :=
    match bc_class c with
    | BSD => irrelevant_by df t X Y
    | CBSD => incl (rows_of df X) (rows_of df Y)
    | CPBSD => incl (pos_rows df t X) (pos_rows df t Y)
    end.
  (** CBSD and CPBSD compare only descriptions of the same quality. *)
  Definition comparable (a b : V) : Prop := match bc_class c with BSD => True | _ => bc_lt c a b = false /\ bc_lt c b a = false end.
  (** The stored element makes [X], of quality [q], superfluous; [X] makes the stored element superfluous. *)
  Definition above (X : pattern) (q : V) (e : bsd_entry V) : Prop := comparable (e_quality e) q /\ covered X (e_pattern e).
  Definition under (X : pattern) (q : V) (e : bsd_entry V) : Prop := comparable (e_quality e) q /\ covered (e_pattern e) X.
  (** [e] is placed in [k], after the elements of at most its quality and before the others, and the elements that are [gone] leave. *)
  Definition inserted (k : list (bsd_entry V)) (e : bsd_entry V) (gone : bsd_entry V -> Prop) (k' : list (bsd_entry V)) : Prop :=
    exists l1 l2 keep, k' = l1 ++ e :: l2 /\ l1 ++ l2 = filter keep k /\ (forall x, In x k -> (keep x = true <-> ~ gone x)) /\
      (forall x, In x l1 -> bc_lt c (e_quality e) (e_quality x) = false) /\ (forall x, In x l2 -> bc_lt c (e_quality e) (e_quality x) = true).
  (** The new element replaces [out] (at most one element) and those that it makes superfluous; if nothing leaves and the list was full, the first one (the lowest quality) leaves. *)
  Definition enters (k : list (bsd_entry V)) (X : pattern) (q : V) (out : list (bsd_entry V)) (k' : list (bsd_entry V)) : Prop :=
    exists e, true_entry c df tcol tval e /\ e_pattern e = X /\ e_quality e = q /\
      inserted k e (fun x => In x out \/ under X q x \/ (full k /\ out = [] /\ (forall y, In y k -> ~ under X q y) /\ hd_error k = Some x)) k'.
  (** [X] reached the list: BSD refuses it if some element makes it superfluous. The other two look at the first such element only: [X] is refused if that element is longer, and replaces it otherwise. *)
  Definition update (k : list (bsd_entry V)) (X : pattern) (q : V) (k' : list (bsd_entry V)) : Prop :=
    ((forall y, In y k -> ~ above X q y) /\ enters k X q [] k') \/
    match bc_class c with
    | BSD => (exists y, In y k /\ above X q y) /\ k' = k
    | _ => exists k1 y k2, k = k1 ++ y :: k2 /\ (forall z, In z k1 -> ~ above X q z) /\ above X q y /\
             if (length X <? length (e_pattern y))%nat then k' = k else enters k X q [y] k'
    end.
  Definition step (k : list (bsd_entry V)) (X : pattern) (k' : list (bsd_entry V)) : Prop :=
    exists w rest q oe, k = w :: rest /\ quality (bc_measure c) df tcol tval X = Ok q /\ quality (bc_oe c) df tcol tval X = Ok oe /\
      ((full k /\ (~ reaches oe (e_quality w) \/ ~ reaches q (e_quality w)) /\ k' = k) \/
       ((~ full k \/ (reaches oe (e_quality w) /\ reaches q (e_quality w))) /\
        ((k = [dummy_entry c] /\ exists e, true_entry c df tcol tval e /\ e_pattern e = X /\ e_quality e = q /\ k' = [e]) \/
         (k <> [dummy_entry c] /\ update k X q k')))).
  (** [X] is the [i]-th description evaluated, the list was full and the estimate of [X] did not reach its lowest quality. *)
  Definition pruned_in (log : list (pattern * list (bsd_entry V))) (i : nat) (X : pattern) : Prop :=
    exists k' w rest oe, nth_error log i = Some (X, k') /\ list_at log i = w :: rest /\ full (list_at log i) /\
      quality (bc_oe c) df tcol tval X = Ok oe /\ ~ reaches oe (e_quality w).
End Spec.

Section Thms.
  Context {V : Type}.
  Variable c : bsd_config V.
  Variable df : dataframe.
  Variables tcol tval : string.
  Hypothesis HB : bsd_input c df tcol tval.
  Let t := Sel tcol EQUAL (VStr tval).
  Notation reaches := (reaches c).
  Notation full := (full c).
  Notation above := (above c df tcol tval).
  Notation under := (under c df tcol tval).
  Lemma passes_spec : forall v w, passes c v w = true <-> reaches v w.
  Proof. intros v w. unfold passes, Properties_BSDSteps.reaches. destruct (bc_class c); [tauto| |]; apply negb_true_iff. Qed.
  Lemma passes_false : forall v w, passes c v w = false <-> ~ reaches v w.
  Proof. intros v w. rewrite <- passes_spec. apply iff_sym, not_true_iff_false. Qed.
  Lemma not_full_spec : forall k, not_full c k = false <-> full k.
  Proof. intros k. unfold not_full, Properties_BSDSteps.full. rewrite Z.ltb_ge. tauto. Qed.
  Lemma not_full_true : forall k, not_full c k = true <-> ~ full k.
  Proof. intros k. rewrite <- not_full_spec. apply iff_sym, not_false_iff_true. Qed.
  Lemma veq_spec : forall a b, value_eq c a b = true <-> bc_lt c a b = false /\ bc_lt c b a = false.
  Proof. intros a b. unfold value_eq. rewrite andb_true_iff, !negb_true_iff. tauto. Qed.
  Lemma dom_spec : forall X Y, dominated df tcol tval X Y = true <-> irrelevant_by df t X Y.
  Proof. intros X Y. unfold dominated. rewrite andb_true_iff, (pos_within df tcol tval), (neg_within df tcol tval). unfold irrelevant_by, t. cbv zeta. reflexivity. Qed.
  Lemma crow_spec : forall X Y, bc_class c <> BSD -> (within df (crow c df tcol tval) X Y = true <-> covered c df tcol tval X Y).
  Proof. intros X Y N. unfold crow, covered; cbv zeta. destruct (bc_class c); [congruence|apply (all_within df tcol tval)|apply (pos_within df tcol tval)]. Qed.
  Lemma hit_spec : forall X q e, hit c df tcol tval X q e = true <-> above X q e.
  Proof.
    intros X q e. unfold hit, Properties_BSDSteps.above, comparable. destruct (bc_class c) eqn:Ec.
    - unfold covered; cbv zeta. rewrite Ec, dom_spec. unfold t. tauto.
    - rewrite andb_true_iff, veq_spec, crow_spec by congruence. tauto.
    - rewrite andb_true_iff, veq_spec, crow_spec by congruence. tauto.
  Qed.
  Lemma obs_spec : forall X q e, obs c df tcol tval X q e = true <-> under X q e.
  Proof.
    intros X q e. unfold obs, Properties_BSDSteps.under, comparable. destruct (bc_class c) eqn:Ec.
    - unfold covered; cbv zeta. rewrite Ec, dom_spec. unfold t. tauto.
    - rewrite andb_true_iff, veq_spec, crow_spec by congruence. tauto.
    - rewrite andb_true_iff, veq_spec, crow_spec by congruence. tauto.
  Qed.
  Lemma hit_false : forall X q e, hit c df tcol tval X q e = false <-> ~ above X q e.
  Proof. intros X q e. rewrite <- hit_spec. apply iff_sym, not_true_iff_false. Qed.
  Lemma obs_false : forall X q e, obs c df tcol tval X q e = false <-> ~ under X q e.
  Proof. intros X q e. rewrite <- obs_spec. apply iff_sym, not_true_iff_false. Qed.
  Lemma list_at_before : forall log i, list_at c log i = list_before c log i.
  Proof. reflexivity. Qed.
  Lemma all_steps : forall st, bsd_fit c (bsd_new c) df tcol tval = Ok st -> exists mask, LI c df tcol tval mask st.
  Proof.
    intros st E. destruct HB as (H1 & H2 & H3 & H4 & H5 & H6). destruct (mask_spec df tcol tval H1 H3) as (mask & Hm & _). exists mask.
    apply (fit_steps c df tcol tval H1 H2 H3 mask Hm H4 H5 H6); auto.
  Qed.
  Lemma pr_spec : forall k X, BSDSteps.pr c df tcol tval k X <-> exists w rest oe, k = w :: rest /\ full k /\ quality (bc_oe c) df tcol tval X = Ok oe /\ ~ reaches oe (e_quality w).
  Proof.
    intros k X. unfold BSDSteps.pr. split.
    - intros (w & oe & A & B & D & F). apply not_full_spec in D. apply passes_false in F. destruct k as [|w' rest]; [discriminate|]. cbn [hd_error] in A. injection A as ->. exists w, rest, oe. auto.
    - intros (w & rest & oe & A & B & D & F). exists w, oe. apply not_full_spec in B. apply passes_false in F. subst k. auto.
  Qed.
  Lemma pruned_spec : forall log i X, pruned_in c df tcol tval log i X <-> pruned_at c df tcol tval log i X.
  Proof.
    intros log i X. unfold pruned_in, pruned_at. split.
    - intros (k' & w & rest & oe & A & B & D & F & G). exists k'. split; auto. apply pr_spec. rewrite list_at_before in *. exists w, rest, oe. auto.
    - intros (k' & A & B). apply pr_spec in B. destruct B as (w & rest & oe & B & D & F & G). exists k', w, rest, oe. auto.
  Qed.
  Lemma before_good : forall mask st i X k', LI c df tcol tval mask st -> nth_error (bs_log st) i = Some (X, k') -> kgood c df tcol tval mask (list_before c (bs_log st) i) /\ kgood c df tcol tval mask k'.
  Proof.
    intros mask st i X k' ((_ & _ & _ & _ & _ & I6) & _) E. split; [|apply (I6 X), (nth_error_In _ i); auto].
    destruct i as [|j]; cbn [list_before]; [left; auto|]. destruct (nth_error (bs_log st) j) as [[Y k]|] eqn:Ej; [apply (I6 Y), (nth_error_In _ j); auto|].
    exfalso. apply nth_error_None in Ej. assert (S j < length (bs_log st))%nat by (apply nth_error_Some; congruence). lia.
  Qed.
  Lemma good_length : forall mask k, kgood c df tcol tval mask k -> Z.of_nat (length k) <= bc_num c.
  Proof. intros mask k [->|(_ & K2 & _)]; auto. destruct HB as (_ & _ & _ & _ & H & _). cbn [length]. lia. Qed.
  Lemma good_entry : forall mask k e, kgood c df tcol tval mask k -> In e k -> e_pattern e <> [] -> true_entry c df tcol tval e.
  Proof.
    intros mask k e [->|(_ & _ & _ & _ & K5 & _)] I N; [destruct I as [<-|[]]; cbn in N; congruence|]. rewrite Forall_forall in K5. apply (ok_true c df tcol tval mask). auto.
  Qed.
  Lemma placed_spec : forall k e gone gone' k', placed c k e gone k' -> (forall x, In x k -> (gone x <-> gone' x)) -> inserted c k e gone' k'.
  Proof. intros k e g g' k' (l1 & l2 & keep & A & B & D & F) H. exists l1, l2, keep. split; auto. split; auto. split; auto. intros x Ix. rewrite (D x Ix), (H x Ix). tauto. Qed.
  Lemma in_placed : forall k e gone k', placed c k e gone k' -> In e k'.
  Proof. intros k e g k' (l1 & l2 & keep & -> & _). apply in_or_app. right. left. auto. Qed.
  Lemma step_spec : forall mask k X k', kgood c df tcol tval mask k -> kgood c df tcol tval mask k' -> X <> [] -> ustep c df tcol tval k X k' -> step c df tcol tval k X k'.
  Proof.
    intros mask k X k' Gk Gk' NX (w & rest & q & oe & Ek & Eq & Eo & H). cbn zeta in H. exists w, rest, q, oe. split; auto. split; auto. split; auto.
    assert (Len := good_length mask k Gk).
    destruct H as [[Op ->]|[(Op & Ed & e & -> & Ee & Qe)|(Op & Nd & H)]].
    - left. destruct (not_full c k) eqn:Nf; [rewrite !orb_true_r in Op; discriminate|]. rewrite !orb_false_r in Op. apply not_full_spec in Nf. split; auto. split; auto.
      apply andb_false_iff in Op. rewrite !passes_false in Op. exact Op.
    - right. split.
      + destruct (not_full c k) eqn:Nf; [left; apply not_full_true; auto|]. right. rewrite !orb_false_r, andb_true_iff, !passes_spec in Op. exact Op.
      + left. split; auto. exists e. split; auto. apply (good_entry mask [e]); auto; [left; auto|congruence].
    - right. split.
      + destruct (not_full c k) eqn:Nf; [left; apply not_full_true; auto|]. right. rewrite !orb_false_r, andb_true_iff, !passes_spec in Op. exact Op.
      + right. split; auto. unfold update.
        assert (OV : forall drop x, overflow c df tcol tval k X q drop x <-> (full k /\ drop = [] /\ (forall y, In y k -> ~ under X q y) /\ hd_error k = Some x)).
        { intros drop x. unfold overflow, Properties_BSDSteps.full. assert (Q : Z.of_nat (length k) = bc_num c <-> bc_num c <= Z.of_nat (length k)) by lia. rewrite Q.
          assert (R : (forall y, In y k -> obs c df tcol tval X q y = false) <-> (forall y, In y k -> ~ under X q y)) by (split; intros R y Iy; apply obs_false; auto). rewrite R. tauto. }
        assert (EN : forall drop e, e_pattern e = X -> e_quality e = q -> placed c k e (fun x => In x drop \/ obs c df tcol tval X q x = true \/ overflow c df tcol tval k X q drop x) k' -> enters c df tcol tval k X q drop k').
        { intros drop e Ee Qe Pl. exists e. split; [apply (good_entry mask k'); auto; [apply (in_placed _ _ _ _ Pl)|congruence]|]. split; auto. split; auto.
          apply (placed_spec _ _ _ _ _ Pl). intros x Ix. rewrite obs_spec, OV. tauto. }
        destruct H as [[Rj ->]|(drop & e & Rp & Ee & Qe & Pl)].
        * right. unfold rejected in Rj. destruct (bc_class c).
          -- split; auto. destruct Rj as (y & Iy & Hy). exists y. split; auto. apply hit_spec; auto.
          -- destruct Rj as (k1 & y & k2 & E1 & E2 & E3 & E4). exists k1, y, k2. split; auto. split; [intros z Iz; apply hit_false; auto|]. split; [apply hit_spec; auto|]. apply Nat.ltb_lt in E4. rewrite E4. reflexivity.
          -- destruct Rj as (k1 & y & k2 & E1 & E2 & E3 & E4). exists k1, y, k2. split; auto. split; [intros z Iz; apply hit_false; auto|]. split; [apply hit_spec; auto|]. apply Nat.ltb_lt in E4. rewrite E4. reflexivity.
        * pose proof (EN drop e Ee Qe Pl) as En. unfold replaced in Rp. destruct (bc_class c).
          -- destruct Rp as [-> Rp]. left. split; auto. intros y Iy. apply hit_false. auto.
          -- destruct Rp as [[-> Rp]|(k1 & y & k2 & E1 & -> & E2 & E3 & E4)]; [left; split; auto; intros y Iy; apply hit_false; auto|]. right. exists k1, y, k2. split; auto. split; [intros z Iz; apply hit_false; auto|]. split; [apply hit_spec; auto|]. apply Nat.ltb_ge in E4. rewrite E4. exact En.
          -- destruct Rp as [[-> Rp]|(k1 & y & k2 & E1 & -> & E2 & E3 & E4)]; [left; split; auto; intros y Iy; apply hit_false; auto|]. right. exists k1, y, k2. split; auto. split; [intros z Iz; apply hit_false; auto|]. split; [apply hit_spec; auto|]. apply Nat.ltb_ge in E4. rewrite E4. exact En.
  Qed.
End Thms.

(** * C82 *)
(** Each evaluated description changes the list exactly as [step] says, starting with the initial element alone, and the last list is the final one. *)
Theorem C82_steps : forall {V} (c : bsd_config V) df tcol tval st, bsd_input c df tcol tval -> bsd_fit c (bsd_new c) df tcol tval = Ok st ->
  (forall i X k', nth_error (bs_log st) i = Some (X, k') -> step c df tcol tval (list_at c (bs_log st) i) X k') /\
  bs_k st = list_at c (bs_log st) (length (bs_log st)).
Proof.
  intros V c df tcol tval st HB E. destruct (all_steps c df tcol tval HB st E) as (mask & HL). split; [|rewrite list_at_before; apply HL].
  intros i X k' H. destruct (before_good c df tcol tval mask st i X k' HL H) as [G1 G2]. rewrite list_at_before. apply (step_spec c df tcol tval HB mask); auto.
  - destruct (C36_depth c df tcol tval st HB E) as [D _]. assert (L := D X k' (nth_error_In _ _ H)). intros ->. cbn in L. lia.
  - apply HL. exact H.
Qed.
Print Assumptions C82_steps.
(** A pruned description: after it no description that contains it is evaluated. *)
Theorem C82_pruned : forall {V} (c : bsd_config V) df tcol tval st i j X Z k, bsd_input c df tcol tval -> bsd_fit c (bsd_new c) df tcol tval = Ok st ->
  pruned_in c df tcol tval (bs_log st) i X -> nth_error (bs_log st) j = Some (Z, k) -> (i < j)%nat -> ~ incl X Z.
Proof.
  intros V c df tcol tval st i j X Z k HB E HP HZ Hij. destruct (all_steps c df tcol tval HB st E) as (mask & _ & _ & _ & HL).
  apply (HL i j X Z k); auto. apply pruned_spec. exact HP.
Qed.
Print Assumptions C82_pruned.
(** Seventeen descriptions are evaluated; the one with index 8 is pruned, and the one with index 6 replaced the only element of the list. *)
Lemma freed_no_quotes : no_quotes freed.
Proof. intros a col I. cbn in I. repeat match type of I with _ \/ _ => destruct I as [I|I] end; try (injection I as <- _; split; reflexivity). destruct I. Qed.
Example C82_nonvacuous : exists st, let c := wracc_config BSD 0 1 5 in
  bsd_input c freed "class" "p" /\ bsd_fit c (bsd_new c) freed "class" "p" = Ok st /\ length (bs_log st) = 17%nat /\
  pruned_in c freed "class" "p" (bs_log st) 8 [is "a" "0"; is "b" "1"] /\
  exists k, nth_error (bs_log st) 6 = Some ([is "a" "1"; is "b" "1"], k) /\ map e_pattern k = [[is "a" "1"; is "b" "1"]] /\
    map e_pattern (list_at c (bs_log st) 6) = [[is "a" "1"]].
Proof.
  eexists. cbn zeta. split; [|split; [vm_compute; reflexivity|]].
  - destruct (rows3_ok [("1","1","0","p"); ("1","1","0","p"); ("1","1","0","p"); ("1","0","0","n"); ("0","1","0","n"); ("0","0","1","p"); ("0","0","0","n")]) as (H1 & _ & H3).
    apply wracc_input; auto; [|lia]. apply no_quotes_texts; [exact H1|exact freed_no_quotes].
  - split; [reflexivity|]. split.
    + eexists _, _, _, _. split; [reflexivity|]. split; [reflexivity|]. split; [vm_compute; discriminate|]. split; [vm_compute; reflexivity|]. vm_compute. discriminate.
    + eexists. split; [reflexivity|]. split; reflexivity.
Qed.
