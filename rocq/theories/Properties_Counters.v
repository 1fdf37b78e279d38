(** Theorem C78: the counters of BSD, CBSD, CPBSD and SDMapStar. *)
From Coq Require Import Lia Permutation.
From Verif Require Import Base CoreModel CoreSpec FPGrowthProofs Properties_SDMap Properties_SDMapStar SDMapStarFit.
From Verif Require Import OrderFacts BSDModel BSDProofs Properties_BSD QualityModel QualitySpec QualityProofs Properties_Quality MiningProofs Properties_VLSD.
From Coq Require Import Lra Lqa.
Open Scope string_scope.
Open Scope list_scope.
Open Scope nat_scope.

(** * BSD, CBSD, CPBSD *)
(** The subgroups stored: the entries of the list of best subgroups that have a description (the initial one has none). *)
Definition is_subgroup {V} (e : bsd_entry V) : bool := match e_pattern e with [] => false | _ :: _ => true end.
Definition stored {V} (st : bsd_state V) : nat := length (filter is_subgroup (bs_k st)).
(** Each description evaluated is stored or counted as unselected; the pruned ones are unselected. *)
Definition accounts {V} (st st' : bsd_state V) : Prop :=
  (exists new, bs_log st' = bs_log st ++ new /\ bs_visited st' = bs_visited st + length new) /\
  (exists more, stored st' + bs_unselected st' + bs_visited st = stored st + bs_unselected st + bs_visited st' + more) /\
  (exists a b, bs_pruned st' = bs_pruned st + a /\ bs_unselected st' = bs_unselected st + a + b).
Lemma accounts_refl : forall {V} (st : bsd_state V), accounts st st.
Proof.
  intros V st. split; [exists []; rewrite app_nil_r; cbn; split; auto; lia|]. split; [exists 0; lia|exists 0, 0; lia].
Qed.
Lemma accounts_trans : forall {V} (a b d : bsd_state V), accounts a b -> accounts b d -> accounts a d.
Proof.
  intros V a b d ((n1 & E1 & V1) & (m1 & M1) & p1 & u1 & P1 & U1) ((n2 & E2 & V2) & (m2 & M2) & p2 & u2 & P2 & U2).
  split; [exists (n1 ++ n2); rewrite E2, E1, app_assoc, app_length; split; auto; lia|]. split; [exists (m1 + m2); lia|exists (p1 + p2), (u1 + u2); lia].
Qed.
Section Bsd.
  Context {V : Type}.
  Variable c : bsd_config V.
  Notation real l := (length (filter (@is_subgroup V) l)).
  Lemma real_le : forall l : list (bsd_entry V), real l <= length l.
  Proof. induction l as [|e l IH]; cbn [filter length]; auto. destruct (is_subgroup e); cbn [length]; lia. Qed.
  Lemma real_app : forall a b : list (bsd_entry V), real (a ++ b) = real a + real b.
  Proof. intros a b. rewrite filter_app, app_length. reflexivity. Qed.
  Lemma real_perm : forall a b : list (bsd_entry V), Permutation a b -> real a = real b.
  Proof. intros a b P. apply Permutation_length. apply perm_filter. exact P. Qed.
  Lemma real_tl : forall k : list (bsd_entry V), real k <= S (real (tl k)).
  Proof. intros [|e k]; cbn [tl filter length]; [lia|]. destruct (is_subgroup e); cbn [length]; lia. Qed.
  Lemma split_real : forall f (k : list (bsd_entry V)) r, split_relevant f k = Ok r -> real k <= real (fst r) + length (snd r).
  Proof.
    intros f. induction k as [|e k IH]; intros r E; cbn [split_relevant] in E; [injection E as <-; cbn; lia|].
    destruct (f e) as [b|]; [|discriminate]. cbn [bind] in E. destruct (split_relevant f k) as [r'|]; [|discriminate]. cbn [bind] in E. injection E as <-.
    specialize (IH r' eq_refl). destruct b; cbn [fst snd filter length]; destruct (is_subgroup e); cbn [length]; lia.
  Qed.
  Lemma closed_real : forall k pos neg q p k' x, closed_relevant_to c k pos neg q p = Ok (Some (k', x)) -> real k <= real k' + length x.
  Proof.
    induction k as [|e k IH]; intros pos neg q p k' x E; cbn [closed_relevant_to] in E; [injection E as <- <-; cbn; lia|].
    assert (N : (do r <- closed_relevant_to c k pos neg q p; Ok match r with Some (l, y) => Some (e :: l, y) | None => None end) = Ok (Some (k', x)) -> real (e :: k) <= real k' + length x).
    { intros H. destruct (closed_relevant_to c k pos neg q p) as [[[l y]|]|] eqn:C; cbn [bind] in H; try discriminate. injection H as <- <-. specialize (IH _ _ _ _ _ _ C).
      cbn [filter]. destruct (is_subgroup e); cbn [length]; lia. }
    destruct (value_eq c (e_quality e) q); [|auto]. destruct (not_within_old _ _ _) as [[|]|]; cbn [bind] in E; [auto| |discriminate].
    destruct (_ <? _)%nat; [discriminate|]. injection E as <- <-. cbn [filter length]. destruct (is_subgroup e); cbn [length]; lia.
  Qed.
  (** What one step may do besides the log and visited_subgroups: [n] units of unselected or stored more, no change in the pruned ones. *)
  Definition step (n : nat) (st st' : bsd_state V) : Prop :=
    bs_log st' = bs_log st /\ bs_visited st' = bs_visited st /\ bs_pruned st' = bs_pruned st /\
    stored st + bs_unselected st + n <= stored st' + bs_unselected st' /\ bs_unselected st <= bs_unselected st'.
  Lemma check_rel_step : forall st pos neg q p r, check_rel c st pos neg q p = Ok r -> step 0 st (snd r).
  Proof.
    intros st pos neg q p r E. unfold check_rel in E. destruct (negb _); [discriminate|]. destruct (first_entry (bs_k st)) as [e0|]; [|discriminate]. cbn [bind] in E.
    assert (S0 : step 0 st st) by (repeat split; lia).
    destruct (e_pattern e0); [injection E as <-; exact S0|].
    assert (Closed : (do r <- closed_relevant_to c (bs_k st) pos neg q p;
      match r with None => Ok (false, add_irrelevants st [(p, q, closed_bits c pos neg)])
      | Some (k, x) => Ok (true, add_unselected (length x) (add_irrelevants (set_k st k) (map irrelevant_of x))) end) = Ok r -> step 0 st (snd r)).
    { intros H. destruct (closed_relevant_to c (bs_k st) pos neg q p) as [[[k x]|]|] eqn:C; cbn [bind] in H; [| |discriminate]; injection H as <-; cbn [snd].
      - apply closed_real in C. unfold step, stored. cbn [add_unselected add_irrelevants set_k bs_k bs_log bs_visited bs_pruned bs_unselected]. repeat split; lia.
      - exact S0. }
    destruct (bc_class c); [|exact (Closed E)|exact (Closed E)].
    destruct (bsd_relevant_to (bs_k st) pos neg) as [b|]; cbn [bind] in E; [|discriminate]. injection E as <-. cbn [snd]. destruct b; exact S0.
  Qed.
  Lemma insert_step : forall st e pos neg st', is_subgroup e = true -> insert_entry c st e pos neg = Ok st' -> step 1 st st'.
  Proof.
    intros st e pos neg st' He E. unfold insert_entry in E. set (k := sort_by _ (bs_k st ++ [e])) in E.
    assert (R : real k = S (real (bs_k st))).
    { rewrite <- (real_perm (bs_k st ++ [e]) k) by apply sort_by_perm. rewrite real_app. cbn [filter]. rewrite He. cbn [length]. lia. }
    unfold check_relevancies in E. cbn [set_k bs_k] in E. destruct (first_entry k) as [e0|] eqn:F; [|discriminate]. cbn [bind] in E.
    assert (T : real (match e_pattern e0 with [] => tl k | _ :: _ => k end) = real k).
    { destruct k as [|x k']; [discriminate|]. cbn [first_entry] in F. injection F as ->. destruct (e_pattern e0) eqn:Ep; auto. cbn [tl filter]. unfold is_subgroup at 2. rewrite Ep. reflexivity. }
    set (k0 := match e_pattern e0 with [] => tl k | _ :: _ => k end) in *.
    destruct (split_relevant _ k0) as [r|] eqn:Sp; [|discriminate]. cbn [bind] in E. apply split_real in Sp. injection E as <-.
    cbn [add_unselected add_irrelevants set_k bs_k]. pose proof (real_tl (fst r)) as Tl.
    destruct (_ <? _)%Z; unfold step, stored; cbn [add_unselected add_irrelevants set_k bs_k bs_log bs_visited bs_pruned bs_unselected]; repeat split; lia.
  Qed.
  Lemma step_trans : forall m n a b d, step m a b -> step n b d -> step (m + n) a d.
  Proof. intros m n a b d (A1 & A2 & A3 & A4 & A5) (B1 & B2 & B3 & B4 & B5). repeat split; [congruence|congruence|congruence|lia|lia]. Qed.
  Lemma extend_nonempty : forall C s, extend_pattern C s <> [].
  Proof.
    intros [|x C] s; [discriminate|]. cbn [extend_pattern]. unfold pattern_copy, add_selector. destruct (nth_error (x :: C) _); [|destruct C; discriminate].
    destruct (sel_ne _ s); [|discriminate]. unfold list_insert. destruct (firstn _ (x :: C)); discriminate.
  Qed.
  Lemma visit_accounts : forall st X st1, step 1 (add_visited st) st1 -> accounts st (add_log X st1).
  Proof.
    intros st X st1 (A1 & A2 & A3 & A4 & A5). unfold accounts. cbn [add_visited add_log bs_log bs_visited bs_pruned bs_unselected] in *.
    split; [eexists; split; [rewrite A1; reflexivity|cbn [length]; lia]|]. unfold stored in *. cbn [add_log add_visited bs_k] in *. split.
    - exists (length (filter is_subgroup (bs_k st1)) + bs_unselected st1 - (length (filter is_subgroup (bs_k st)) + bs_unselected st + 1)). lia.
    - exists 0, (bs_unselected st1 - bs_unselected st). lia.
  Qed.
  Lemma handle_accounts : forall st C s oe q pos neg nsr tp fp r, bsd_handle c st C s oe q pos neg nsr tp fp = Ok r -> accounts st (snd r).
  Proof.
    intros st C s oe q pos neg nsr tp fp r E. unfold bsd_handle in E. set (X := extend_pattern C s) in E.
    destruct (first_entry _) as [w|]; [|discriminate]. cbn [bind] in E. set (st0 := add_visited st) in *.
    assert (U : forall st1, step 0 st0 st1 -> step 1 st0 (add_unselected 1 st1)).
    { intros st1 (A1 & A2 & A3 & A4 & A5). unfold step, stored in *. cbn [add_unselected bs_log bs_visited bs_pruned bs_unselected bs_k]. repeat split; try assumption; lia. }
    destruct (passes c oe (e_quality w) || not_full c (bs_k st0)).
    - destruct (passes c q (e_quality w) || not_full c (bs_k st0)).
      + destruct (check_rel c st0 pos neg q X) as [r1|] eqn:CR; [|discriminate]. cbn [bind] in E. apply check_rel_step in CR. destruct (fst r1).
        * destruct (insert_entry c (snd r1) _ pos neg) as [st2|] eqn:IE; [|discriminate]. cbn [bind] in E. injection E as <-. cbn [snd].
          apply insert_step in IE; [|unfold is_subgroup; cbn [e_pattern]; pose proof (extend_nonempty C s) as N; fold X in N; destruct X; [congruence|reflexivity]].
          apply visit_accounts. exact (step_trans 0 1 _ _ _ CR IE).
        * injection E as <-. cbn [snd]. apply visit_accounts. apply U. exact CR.
      + injection E as <-. cbn [snd]. apply visit_accounts. apply U. repeat split; lia.
    - injection E as <-. cbn [snd]. unfold accounts, stored. cbn [add_log add_unselected add_pruned add_visited bs_log bs_visited bs_pruned bs_unselected bs_k st0].
      split; [eexists; split; [reflexivity|cbn [length]; lia]|]. split; [exists 0; lia|exists 1, 0; lia].
  Qed.
  Lemma evaluate_accounts : forall dpos dneg C cpos cneg acc s r, bsd_evaluate c dpos dneg C cpos cneg acc s = Ok r -> accounts (snd acc) (snd r).
  Proof.
    intros dpos dneg C cpos cneg [nsr st] s r E. cbn [bsd_evaluate] in E. cbn [snd].
    destruct (bitset_get dpos s) as [bp|]; [|discriminate]. cbn [bind] in E.
    destruct (match C with [] => Ok bp | _ :: _ => logical_and cpos bp end) as [pos|]; [|discriminate]. cbn [bind] in E.
    destruct (bitset_get dneg s) as [bn|]; [|discriminate]. cbn [bind] in E.
    destruct (match C with [] => Ok bn | _ :: _ => logical_and cneg bn end) as [neg|]; [|discriminate]. cbn [bind] in E.
    destruct (_ =? 0)%Z.
    - injection E as <-. cbn [snd]. split; [exists []; rewrite app_nil_r; cbn [add_unselected bs_log bs_visited length]; split; auto; lia|].
      unfold stored. cbn [add_unselected bs_k bs_unselected bs_visited bs_pruned]. split; [exists 1; lia|exists 0, 1; lia].
    - destruct (bc_oe c _ _ _ _) as [oe|]; [|discriminate]. cbn [bind] in E. destruct (bc_measure c _ _ _ _) as [q|]; [|discriminate]. cbn [bind] in E.
      apply handle_accounts in E. exact E.
  Qed.
  Lemma fold_accounts : forall dpos dneg C cpos cneg l acc r, fold_res (bsd_evaluate c dpos dneg C cpos cneg) l acc = Ok r -> accounts (snd acc) (snd r).
  Proof.
    induction l as [|s l IH]; intros acc r E; cbn [fold_res] in E; [injection E as <-; apply accounts_refl|].
    destruct (bsd_evaluate c dpos dneg C cpos cneg acc s) as [a|] eqn:Ea; [|discriminate]. cbn [bind] in E. apply evaluate_accounts in Ea. eapply accounts_trans; [exact Ea|apply IH; exact E].
  Qed.
  Lemma search_accounts : forall dpos dneg fuel C R cpos cneg depth st st', bsd_search c dpos dneg fuel C R cpos cneg depth st = Ok st' -> accounts st st'.
  Proof.
    intros dpos dneg. induction fuel as [|f IH]; intros C R cpos cneg depth st st' E; [discriminate|]. cbn [bsd_search] in E.
    destruct (fold_res _ R ([], st)) as [r|] eqn:F; [|discriminate]. cbn [bind] in E. apply fold_accounts in F. cbn [snd] in F. apply (accounts_trans _ _ _ F). clear F.
    destruct (depth <? bc_max_depth c)%Z; [|injection E as <-; apply accounts_refl]. revert E. generalize (snd r) as st1. generalize (map snd (sort_by (fun x y => pair_lt c y x) (fst r))) as aux.
    generalize (sort_by (fun x y => pair_lt c y x) (fst r)) as l. induction l as [|x l IHl]; intros aux st1 E; [injection E as <-; apply accounts_refl|].
    destruct (first_entry (bs_k st1)) as [w|]; [|discriminate]. cbn [bind] in E. destruct (bc_lt c (e_quality w) (fst x)).
    - destruct (remove_first (snd x) aux) as [aux'|]; [|discriminate]. cbn [bind] in E. destruct (bitset_get dpos (snd x)) as [bp|]; [|discriminate]. cbn [bind] in E.
      destruct (logical_and cpos bp) as [pos|]; [|discriminate]. cbn [bind] in E. destruct (bitset_get dneg (snd x)) as [bn|]; [|discriminate]. cbn [bind] in E.
      destruct (logical_and cneg bn) as [neg|]; [|discriminate]. cbn [bind] in E. destruct (bsd_search c dpos dneg f _ aux' pos neg _ st1) as [st2|] eqn:Es; [|discriminate]. cbn [bind] in E.
      apply IH in Es. apply (accounts_trans _ _ _ Es). apply (IHl aux' st2 E).
    - apply IHl in E. eapply accounts_trans; [|exact E]. split; [exists []; rewrite app_nil_r; split; cbn; auto; lia|].
      unfold stored. cbn [add_unselected add_pruned bs_k bs_unselected bs_visited bs_pruned]. split; [exists 1; lia|exists 1, 0; lia].
  Qed.
End Bsd.
(** Any state of the object, any dataset and configuration: the differences made by one fit. *)
Theorem C78_bsd_differences : forall {V} (c : bsd_config V) st df tcol tval st', bsd_fit c st df tcol tval = Ok st' -> accounts st st'.
Proof.
  intros V c st df tcol tval st' E. unfold bsd_fit in E. destruct (negb _); [discriminate|]. destruct (target_mask _ _ _) as [mask|]; [|discriminate]. cbn [bind] in E.
  destruct (population df mask) as [TP FP]. destruct (bsd_search _ _ _ _ _ _ _ _ _ _) as [st1|] eqn:Es; [|discriminate]. cbn [bind] in E. apply search_accounts in Es.
  destruct (first_entry (bs_k st1)) as [e0|]; [|discriminate]. cbn [bind] in E. unfold accounts, stored in *. cbn [bs_log bs_visited bs_k bs_unselected bs_pruned] in *.
  destruct (bc_write c); injection E as <-; cbn [bs_log bs_visited bs_k bs_unselected bs_pruned]; exact Es.
Qed.
Print Assumptions C78_bsd_differences.
(** A new object: visited_subgroups is the number of the descriptions evaluated, each a description that some row matches and evaluated
    once; the selected ones are among them; each one is selected or counted in unselected_subgroups, and the pruned ones are counted there. *)
Theorem C78_bsd : forall {V} (c : bsd_config V) df tcol tval st, bsd_input c df tcol tval ->
  (forall X q, candidate df tcol X -> quality (bc_measure c) df tcol tval X = Ok q -> bc_lt c (bc_dummy c) q = true) ->
  bsd_fit c (bsd_new c) df tcol tval = Ok st ->
  exists evaluated chosen, NoDup evaluated /\ (forall X, In X evaluated -> candidate df tcol X) /\ bs_visited st = length evaluated /\
    NoDup chosen /\ incl chosen evaluated /\ bs_selected st = length chosen /\ (forall e, In e (bs_k st) -> e = dummy_entry c \/ In (e_pattern e) chosen) /\
    bs_visited st <= bs_selected st + bs_unselected st /\ bs_pruned st <= bs_unselected st.
Proof.
  intros V c df tcol tval st HB Hd E. pose proof (C78_bsd_differences c _ df tcol tval st E) as ((new & A1 & A2) & (more & A3) & a & b & A4 & A5).
  unfold bsd_new in A1, A2, A3, A4, A5. cbn [bs_log bs_visited bs_pruned bs_unselected app Nat.add] in A1, A2, A3, A4, A5. unfold stored in A3. cbn [bs_k filter is_subgroup dummy_entry e_pattern length] in A3. change (is_subgroup (dummy_entry c)) with false in A3. cbn [length] in A3.
  destruct (fit_ok c df tcol tval HB) as (mask & Hm & F). rewrite E in F. destruct F as (HI & FV & (e0 & k & Ek & Es) & _). destruct HI as (I1 & _ & _ & I4 & I5 & _).
  exists (visited st). assert (L : bs_visited st = length (visited st)) by (unfold visited; rewrite map_length, A1, A2; auto).
  assert (C : exists chosen, NoDup chosen /\ incl chosen (visited st) /\ bs_selected st = length chosen /\ (forall e, In e (bs_k st) -> e = dummy_entry c \/ In (e_pattern e) chosen) /\
              length (filter is_subgroup (bs_k st)) = length chosen).
  { destruct HB as (_ & _ & _ & (W1 & _) & _ & _). destruct I1 as [Ed|(K1 & K2 & K3 & K4 & K5 & K6)].
    - exists []. assert (Ev : value_eq c (bc_dummy c) (bc_dummy c) = true) by (unfold value_eq; rewrite W1; reflexivity).
      rewrite Es. rewrite Ed in *. injection Ek as <- <-. cbn [dummy_entry e_quality]. rewrite Ev. split; [constructor|]. split; [intros x []|]. split; [reflexivity|]. split; [intros e [<-|[]]; auto|reflexivity].
    - exists (map e_pattern (bs_k st)). assert (Hv : forall e, In e (bs_k st) -> value_eq c (e_quality e) (bc_dummy c) = false).
      { intros e Ie. rewrite Forall_forall in K5. destruct (K5 e Ie) as (B1 & _ & _ & _ & _ & B6 & _). unfold value_eq. rewrite (Hd _ _ B1 B6). apply andb_false_r. }
      assert (Hs : forall e, In e (bs_k st) -> is_subgroup e = true).
      { intros e Ie. rewrite Forall_forall in K5. destruct (K5 e Ie) as (((B1 & _) & _) & _). unfold is_subgroup. destruct (e_pattern e); congruence. }
      split; [exact K4|]. split; [|split; [|split]].
      + intros X IX. apply in_map_iff in IX. destruct IX as (e & <- & Ie). destruct (I5 e Ie) as [->|H]; auto. specialize (Hs _ Ie). discriminate.
      + rewrite map_length, Es, Ek. cbn [length]. rewrite (Hv e0); auto. rewrite Ek. left; auto.
      + intros e Ie. right. apply in_map. exact Ie.
      + rewrite map_length. f_equal. clear -Hs. induction (bs_k st) as [|x l IH]; cbn [filter]; auto. rewrite (Hs x) by (left; auto). f_equal. apply IH. intros e Ie. apply Hs. right; auto. }
  destruct C as (chosen & C1 & C2 & C3 & C4 & C5). exists chosen. split; [exact I4|]. split; [intros X IX; rewrite Forall_forall in FV; apply (FV X IX)|]. split; [exact L|]. split; [exact C1|]. split; [exact C2|].
  split; [exact C3|]. split; [exact C4|]. split; [|lia]. rewrite C3, <- C5. lia.
Qed.
Print Assumptions C78_bsd.
(** With WRAcc the initial value -99999 is below every quality. *)
Lemma wracc_above : forall cl ms num depth df tcol tval X q, candidate df tcol X ->
  quality (bc_measure (wracc_config cl ms num depth)) df tcol tval X = Ok q -> bc_lt (wracc_config cl ms num depth) (bc_dummy (wracc_config cl ms num depth)) q = true.
Proof.
  intros cl ms num depth df tcol tval X q K E. cbn [wracc_config bc_lt bc_dummy bc_measure] in *. apply qlt_true.
  destruct (candidate_counts df tcol tval X K) as (A1 & A2 & A3). set (t := Sel tcol EQUAL (VStr tval)) in *.
  assert (D : describes (table (inject_Z (tp_of df t X)) (inject_Z (fp_of df t X)) (inject_Z (TP_of df tcol tval)) (inject_Z (FP_of df tcol tval)))
    (inject_Z (tp_of df t X)) (inject_Z (fp_of df t X)) (inject_Z (TP_of df tcol tval)) (inject_Z (FP_of df tcol tval))) by (repeat split; reflexivity).
  assert (Cs : consistent (inject_Z (tp_of df t X)) (inject_Z (fp_of df t X)) (inject_Z (TP_of df tcol tval)) (inject_Z (FP_of df tcol tval))).
  { unfold consistent. change 0%Q with (inject_Z 0). rewrite <- ?inject_Z_plus, <- ?Zle_Qle, <- ?Zlt_Qlt. lia. }
  destruct (C14_ranges WRAcc _ _ _ _ _ q D Cs (fun H => ltac:(discriminate)) E) as [Lo _]. cbn [lower] in Lo. lra.
Qed.
(** unselected_subgroups also counts descriptions that were not visited (no row matches them) and branches cut after their description was
    visited: it is not visited - selected. *)
Theorem C78_bsd_refuted : exists st, let c := wracc_config BSD 0 3 1 in bsd_input c toy "class" "p" /\
  (forall X q, candidate toy "class" X -> quality (bc_measure c) toy "class" "p" X = Ok q -> bc_lt c (bc_dummy c) q = true) /\
  bsd_fit c (bsd_new c) toy "class" "p" = Ok st /\ bs_visited st = 7 /\ bs_selected st = 1 /\ bs_unselected st = 10 /\ bs_pruned st = 2.
Proof.
  eexists. cbn zeta. split; [apply Properties_BSD.toy_input; lia|]. split; [intros X q; apply wracc_above|]. split; [vm_compute; reflexivity|]. repeat split.
Qed.
Print Assumptions C78_bsd_refuted.
(** * SDMapStar *)
(** One fit with a limit from any state: the handled descriptions, each frequent and handled once, add up to the increase of
    visited_nodes (= selected + unselected); the ones whose quality reaches the minimum are the increase of selected_subgroups, and, when a
    file is written, its lines; the numbers of pruned subgroups and branches do not decrease. Without frequent descriptions nothing changes. *)
Theorem C78_star : forall V (c : star_config V) df tcol tval st st', (0 < sc_num c)%Z -> categorical df -> distinct_keys df tcol -> has_column df tcol ->
  star_fit c st df tcol tval = Ok st' ->
  (st' = st /\ forall X, ~ frequent_for c df tcol tval X) \/
  exists (handled : list (list selector * (Z * Z))) (reaching : list (list selector * (Z * Z))),
    NoDup (map fst handled) /\ (forall X tp fp, In (X, (tp, fp)) handled -> frequent_for c df tcol tval X) /\
    (st_selected (ss_base st') + st_unselected (ss_base st') = st_selected (ss_base st) + st_unselected (ss_base st) + length handled) /\
    NoDup (map fst reaching) /\
    (forall X tp fp, In (X, (tp, fp)) reaching <-> In (X, (tp, fp)) handled /\
      exists q, c_measure (sc_base c) tp fp (TP_of df tcol tval) (FP_of df tcol tval) = Ok q /\ c_reaches (sc_base c) q = true) /\
    st_selected (ss_base st') = st_selected (ss_base st) + length reaching /\
    (c_write (sc_base c) = true -> exists ls, st_file (ss_base st') = Some ls /\ length ls = length reaching) /\
    ss_pruned st <= ss_pruned st' /\ ss_cpruned st <= ss_cpruned st'.
Proof.
  intros V c df tcol tval st st' Hn H1 H2 H3 E. destruct (star_fit_limit V c df tcol tval st st' Hn H1 H2 H3 E) as [[-> N]|(W & L)]; [left; auto|right].
  destruct L as [L1 L2 L3 L4 _ _]. destruct (handle_fold _ _ _ _ _ _ _ L3) as (Q & S1 & S2 & F).
  set (keep := fun v : list selector * (Z * Z) => match c_measure (sc_base c) (fst (snd v)) (snd (snd v)) (TP_of df tcol tval) (FP_of df tcol tval) with Ok q => c_reaches (sc_base c) q | Err _ => false end).
  assert (Lw : length (wlines (sc_base c) (Sel tcol EQUAL (VStr tval)) (TP_of df tcol tval) (FP_of df tcol tval) W) = length (filter keep W)).
  { clear. unfold wlines. induction W as [|v W IH]; auto. cbn [flat_map filter]. unfold keep at 1. destruct (c_measure _ _ _ _ _) as [q|]; [destruct (c_reaches _ q)|]; cbn [app length]; auto. }
  exists W, (filter keep W). split; [exact L1|]. split; [intros X tp fp I; apply (L2 X tp fp I)|].
  assert (B : st_selected (if c_write (sc_base c) then SDS (st_selected (ss_base st)) (st_unselected (ss_base st)) (Some []) else ss_base st) = st_selected (ss_base st) /\
              st_unselected (if c_write (sc_base c) then SDS (st_selected (ss_base st)) (st_unselected (ss_base st)) (Some []) else ss_base st) = st_unselected (ss_base st)) by (destruct (c_write (sc_base c)); auto).
  destruct B as [B1 B2]. rewrite B1, B2 in S2. rewrite B1, Lw in S1. split; [exact S2|]. split.
  { clear -L1. induction W as [|v W IH]; [constructor|]. cbn [map] in L1. inversion L1 as [|? ? N1 N2]; subst. cbn [filter]. destruct (keep v); auto. cbn [map]. constructor; auto.
    intros I. apply N1. apply in_map_iff in I. destruct I as (w & <- & Iw). apply filter_In in Iw. apply in_map. tauto. }
  split.
  { intros X tp fp. rewrite filter_In. unfold keep. cbn [fst snd]. destruct (c_measure (sc_base c) tp fp _ _) as [q|]; split.
    - intros [I R]. split; auto. exists q; auto.
    - intros (I & q' & [= <-] & R). auto.
    - intros [_ [=]].
    - intros (_ & q' & [=] & _). }
  split; [exact S1|]. split; [|exact L4]. intros Hw. rewrite Hw in F. cbn [st_file] in F. eexists. split; [exact F|]. cbn [app]. exact Lw.
Qed.
Print Assumptions C78_star.
Example C78_star_nonvacuous : exists st0 st', let c := ps_config 0 1 in let df := rows3 rows_c in
  (0 < sc_num c)%Z /\ categorical df /\ distinct_keys df "class" /\ has_column df "class" /\ star_new c = Ok st0 /\ star_fit c st0 df "class" "p" = Ok st' /\ st' <> st0 /\
  (st_selected (ss_base st'), st_unselected (ss_base st'), ss_pruned st', ss_cpruned st') = (3, 0, 4, 0).
Proof.
  eexists. eexists. cbn zeta. split; [reflexivity|]. destruct (rows3_ok rows_c) as (H1 & H2 & H3). split; [exact H1|]. split; [exact H2|]. split; [exact H3|].
  split; [vm_compute; reflexivity|]. split; [vm_compute; reflexivity|]. split; [discriminate|reflexivity].
Qed.
