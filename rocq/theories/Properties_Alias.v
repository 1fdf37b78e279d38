(** C79: which objects a client shares with a SubgroupList.  The specification is at the start of AliasProofs.v
    ([borrowed], [careful], [root], [calls]); the objects are those of AliasModel.v. *)
From Coq Require Import String Lia ZifyBool.
From Verif Require Import AliasInv.
Open Scope list_scope.
Open Scope nat_scope.

(** The list shows the history of the calls made on it, with the values that the arguments had at the time of each call: later changes of
    the client's bitarrays, patterns and subgroups, and other lists, have no effect.  The only requirement is that the client does not
    change what it obtained from a list. *)
Theorem C79_lists : forall before xp xn n after bp bn l, careful (before ++ NewList xp xn n :: after) ->
  let st := run empty_state before in bits_of st xp = Some bp -> bits_of st xn = Some bn -> sl_init bp bn n = Ok l ->
  let st1 := step st (NewList xp xn n) in
  list_of (run st1 after) (length before) = Some (sl_history l (calls st1 after (length before))).
Proof.
  intros before xp xn n after bp bn l C st Hp Hn Hl st1. apply careful_assoc in C. pose proof (careful_prefix _ _ C) as C1. destruct (reach _ (careful_prefix _ _ C1)) as (tags & HI). fold st in HI.
  destruct (new_list_ok _ tags bp bn n l (v_heap _ _ _ _ HI) Hl) as (_ & _ & _ & D & V). set (h' := st_heap st ++ _) in *. set (y := HL _ _ _ _ _ _ _ _) in *.
  assert (E : exec st (NewList xp xn n) = Ok (h', Some (length (st_heap st) + 2))).
  { cbn [exec]. unfold the. unfold bits_of in Hp, Hn. destruct (var st xp) as [lp|]; [|discriminate]. destruct (var st xn) as [ln|]; [|discriminate]. rewrite Hp, Hn. cbn [bind snd].
    unfold sl_init in Hl. destruct (negb (n =? length bp)); [discriminate|]. destruct (negb (n =? length bn)); [discriminate|]. cbn [alloc]. rewrite <- !app_assoc, !app_length. cbn [app length]. reflexivity. }
  destruct (run_new before _ _ _ E) as [H1 H2]. destruct (reach _ C1) as (tags1 & HI1). destruct (later _ after _ C HI1) as (tags2 & _ & _ & _ & _ & VV & LL).
  assert (R1 : run empty_state (before ++ [NewList xp xn n]) = st1) by apply run_snoc. assert (R2 : run empty_state ((before ++ [NewList xp xn n]) ++ after) = run st1 after) by (rewrite run_app, R1; reflexivity). cbv zeta in VV, LL. rewrite R2, R1 in VV, LL. rewrite R1 in H1, H2.
  rewrite H1 in LL. destruct (LL _ _ _ _ H2 D V) as (y' & Ey & Ev & _). apply list_of_view. exists (length (st_heap st) + 2), y'. split; [apply VV; exact H2|auto].
Qed.
(** A Pattern (or the description of a Subgroup) of the client changes only through a Pattern that is the same object. *)
Definition change (o : op) (p : pattern) : pattern :=
  match o with
  | AddSelector _ s => add_selector p s
  | RemoveSelector _ s => remove_selector p s
  | RemoveIndex _ i => match remove_by_index p i with Ok q => q | Err _ => p end
  | _ => p
  end.
Definition is_pattern (st : state) (y : nat) : Prop := exists l p, var st y = Some l /\ pat_at (st_heap st) l = Some p.
Definition hits (prog : list op) (o : op) (x : nat) : Prop := exists y, target o = Some y /\ is_pattern (run empty_state prog) y /\ root prog y = root prog x.
Lemma C79_patterns_aux : forall prog o x p, careful (prog ++ [o]) -> nth x (borrowed prog) false = false ->
  description_of (run empty_state prog) x = Some p ->
  (hits prog o x -> description_of (run empty_state (prog ++ [o])) x = Some (change o p)) /\
  (~ hits prog o x -> description_of (run empty_state (prog ++ [o])) x = Some p).
Proof.
  intros prog o x p C Bx Dx. destruct (reach _ (careful_prefix _ _ C)) as (tags & HI). set (st := run empty_state prog) in *.
  destruct (inv_step _ _ _ _ o HI (fun y => careful_last prog o y C)) as (tags' & _ & [X _ SC _ _]). apply description_ploc in Dx. destruct Dx as (lx & dx & Vx & Px & Ex).
  assert (Tdx : nth_error tags dx = Some Client).
  { destruct (v_env _ _ _ _ HI x lx Vx) as [_ Cl]. destruct (Cl Bx) as [C1 C2]. unfold ploc in Px. destruct (shape_at (st_heap st) lx) as [[]|] eqn:S0; try discriminate; injection Px as <-; [exact C1|eapply C2; reflexivity]. }
  assert (Pd : forall q, pat_at (st_heap (step st o)) dx = Some q -> description_of (run empty_state (prog ++ [o])) x = Some q).
  { intros q Eq. rewrite run_snoc. apply description_ploc. exists lx, dx. split; [apply var_step; exact Vx|]. split; [eapply ploc_ext; eauto|exact Eq]. }
  assert (Iff : forall y ly, target o = Some y -> var st y = Some ly -> shape_at (st_heap st) ly = Some SPat -> (ly = dx <-> root prog y = root prog x)).
  { intros y ly T Vy Sy. apply (v_root _ _ _ _ HI y x ly lx ly dx Vy Vx); auto; [eapply careful_last; eauto|]. unfold ploc. rewrite Sy. reflexivity. }
  pose proof (pat_shape _ _ _ Ex) as Sdx. split.
  - intros (y & T & (ly & py & Vy & Ey) & Ry). fold st in Vy, Ey. apply Pd. apply (proj2 (Iff y ly T Vy (pat_shape _ _ _ Ey))) in Ry. subst ly. rewrite Ex in Ey. injection Ey as <-.
    assert (Nx : exists z, nth_error (st_heap st) dx = Some z) by (unfold pat_at in Ex; destruct (nth_error (st_heap st) dx); [eauto|discriminate]). destruct Nx as (z & Nx).
    assert (S1 : forall q, pat_at (set_at (st_heap st) dx (OPattern q)) dx = Some q) by (intros q; unfold pat_at; rewrite (nth_set_same _ _ _ _ Nx); reflexivity).
    destruct o; try discriminate T; injection T as ->; unfold step; cbn [exec change]; unfold the; rewrite Vy.
    + rewrite Ex. cbn [bind fst snd st_heap]. apply S1.
    + rewrite Ex. cbn [bind fst snd st_heap]. apply S1.
    + rewrite Ex. cbn [bind fst snd st_heap]. destruct (remove_by_index p i) as [q|e]; cbn [bind st_heap]; [apply S1|exact Ex].
    + assert (Nb : bits_at (st_heap st) dx = None) by (unfold bits_at, pat_at in *; destruct (nth_error (st_heap st) dx) as [[]|]; congruence). rewrite Nb. cbn [bind st_heap]. exact Ex.
  - intros NH. apply Pd. unfold pat_at. rewrite SC; [exact Ex|exact Tdx|rewrite Sdx; discriminate|]. intros y T Vy. apply NH. exists y. split; [exact T|]. split; [exists dx, p; auto|]. apply (Iff y dx T Vy Sdx). reflexivity.
Qed.
Theorem C79_patterns : forall prog o x p, careful (prog ++ [o]) -> nth x (borrowed prog) false = false ->
  let st := run empty_state prog in let st' := run empty_state (prog ++ [o]) in
  description_of st x = Some p ->
  (hits prog o x -> description_of st' x = Some (change o p)) /\ (~ hits prog o x -> description_of st' x = Some p) /\
  (forall t, subgroup_of st x = Some (SG p t) -> exists p', subgroup_of st' x = Some (SG p' t) /\ description_of st' x = Some p').
Proof.
  intros prog o x p C Bx st st' Dx. destruct (C79_patterns_aux prog o x p C Bx Dx) as [A B]. split; [exact A|]. split; [exact B|]. intros t Hs.
  destruct (reach _ (careful_prefix _ _ C)) as (tags & HI). fold st in HI. destruct (inv_step _ _ _ _ o HI (fun y => careful_last prog o y C)) as (tags' & HI' & [X _ _ _ _]). assert (R : st' = step st o) by apply run_snoc. rewrite R. clear A B. unfold subgroup_of, subgroup_value in Hs. destruct (var st x) as [l|] eqn:V; [|discriminate]. destruct (sub_at (st_heap st) l) as [[d t']|] eqn:S0; [|discriminate]. destruct (pat_at (st_heap st) d); [|discriminate]. injection Hs as _ ->.
  apply sub_shape in S0. pose proof (X _ _ S0) as S1. pose proof (proj1 (proj2 (v_heap _ _ _ _ HI')) _ _ _ S1) as S2. destruct (shape_pat _ _ S2) as (p' & Ep & _). exists p'. pose proof (var_step st o _ _ V) as V'. apply sub_shape in S1.
  unfold subgroup_of, subgroup_value. rewrite V', S1, Ep. split; [reflexivity|]. apply description_ploc. exists l, d. split; [exact V'|]. split; [|exact Ep]. unfold ploc. apply sub_shape in S1. rewrite S1. reflexivity.
Qed.
(** A bitarray of the client changes only by its own item assignments. *)
Theorem C79_bits : forall prog o x b, careful (prog ++ [o]) -> nth x (borrowed prog) false = false ->
  bits_of (run empty_state prog) x = Some b ->
  bits_of (run empty_state (prog ++ [o])) x =
  Some (match o with SetBit y i v => if (y =? x) && (i <? length b) then firstn i b ++ v :: skipn (S i) b else b | _ => b end).
Proof.
  intros prog o x b C Bx Hb. destruct (reach _ (careful_prefix _ _ C)) as (tags & HI). set (st := run empty_state prog) in *.
  destruct (inv_step _ _ _ _ o HI (fun y => careful_last prog o y C)) as (tags' & _ & [X _ SC _ _]). rewrite run_snoc. fold st. unfold bits_of in *. destruct (var st x) as [l|] eqn:V; [|discriminate]. rewrite (var_step st o _ _ V).
  pose proof (bits_shape _ _ _ Hb) as S0. destruct (v_env _ _ _ _ HI x l V) as [_ Cl]. destruct (Cl Bx) as [Tl _].
  assert (Other : (forall y, target o = Some y -> var st y <> Some l) -> bits_at (st_heap (step st o)) l = Some b).
  { intros H. unfold bits_at. rewrite SC; [exact Hb|exact Tl|rewrite S0; discriminate|exact H]. }
  assert (Inj : forall y, target o = Some y -> var st y = Some l -> y = x) by (intros y T Vy; apply (v_bits _ _ _ _ HI y x l Vy V); auto; eapply careful_last; eauto).
  assert (Sb : forall (l0 : list bool) i v, i < length l0 -> set_at l0 i v = firstn i l0 ++ v :: skipn (S i) l0).
  { induction l0 as [|c l0 IH]; intros i v H; [cbn in H; lia|]. destruct i as [|i]; [reflexivity|]. cbn [set_at firstn app]. rewrite IH by (cbn in H; lia). reflexivity. }
  assert (Not : forall y s, target o = Some y -> (forall y, target o = Some y -> exec st o = match the pat_at AttributeError st y with Ok p => s p | Err e => Err e end) -> bits_at (st_heap (step st o)) l = Some b).
  { intros y s T E. destruct (var st y) as [k|] eqn:Vy.
    - destruct (Nat.eq_dec k l) as [->|N]; [|apply Other; intros z Tz; congruence]. unfold step. rewrite (E y T). unfold the. rewrite Vy. assert (Np : pat_at (st_heap st) l = None) by (unfold bits_at, pat_at in *; destruct (nth_error (st_heap st) l) as [[]|]; congruence). rewrite Np. exact Hb.
    - apply Other. intros z Tz. congruence. }
  destruct o; try (apply Other; intros y T; discriminate T).
  - eapply Not; [reflexivity|]. intros y [= <-]. reflexivity.
  - eapply Not; [reflexivity|]. intros y [= <-]. reflexivity.
  - eapply Not; [reflexivity|]. intros y [= <-]. reflexivity.
  - rename x0 into y, b0 into v. destruct (y =? x) eqn:Exy.
    + apply Nat.eqb_eq in Exy. subst y. unfold step. cbn [exec]. unfold the. rewrite V, Hb. cbn [bind fst snd andb]. destruct (i <? length b) eqn:Li; cbn [st_heap]; [|exact Hb]. apply Nat.ltb_lt in Li. rewrite <- Sb by exact Li.
      assert (Nx : exists z, nth_error (st_heap st) l = Some z) by (unfold bits_at in Hb; destruct (nth_error (st_heap st) l); [eauto|discriminate]). destruct Nx as (z & Nx). unfold bits_at. rewrite (nth_set_same _ _ _ _ Nx). reflexivity.
    + cbn [andb]. apply Other. intros z [= <-] Vy. apply Nat.eqb_neq in Exy. apply Exy. apply Inj; auto.
Qed.
(** What the variables denote just after they are created. *)
Theorem C79_created : forall prog x, let st := run empty_state prog in let after o := run empty_state (prog ++ [o]) in let new := length prog in
  (forall l, description_of (after (NewPattern l)) new = Some (pattern_init l)) /\
  (forall b, bits_of (after (NewBits b)) new = Some b) /\
  (is_pattern st x -> description_of (after (CopyPattern x)) new = description_of st x) /\
  (is_pattern st x -> forall t p, description_of st x = Some p -> subgroup_of (after (NewSubgroup x t)) new = Some (SG p t)) /\
  (forall g, subgroup_of st x = Some g -> subgroup_of (after (CopySubgroup x)) new = Some g /\ description_of (after (Description x)) new = Some (g_desc g)).
Proof.
  intros prog x st after new. unfold after, new.
  assert (P : is_pattern st x -> exists l p, var st x = Some l /\ pat_at (st_heap st) l = Some p /\ description_of st x = Some p).
  { intros (l & p & V & E). exists l, p. split; [exact V|]. split; [exact E|]. apply description_ploc. exists l, l. split; [exact V|]. split; [|exact E]. unfold ploc. rewrite (pat_shape _ _ _ E). reflexivity. }
  split; [|split; [|split; [|split]]].
  - intros l. destruct (run_new prog (NewPattern l) _ _ eq_refl) as [H V]. unfold description_of. rewrite V, H. rewrite nth_app_new. reflexivity.
  - intros b. destruct (run_new prog (NewBits b) _ _ eq_refl) as [H V]. unfold bits_of. rewrite V, H. unfold bits_at. rewrite nth_app_new. reflexivity.
  - intros HP. destruct (P HP) as (l & p & V & E & ->). assert (Ex : exec st (CopyPattern x) = Ok (st_heap st ++ [OPattern (pattern_copy p)], Some (length (st_heap st)))) by (cbn [exec]; unfold the; rewrite V, E; reflexivity).
    destruct (run_new prog _ _ _ Ex) as [H W]. unfold description_of. rewrite W, H. rewrite nth_app_new. reflexivity.
  - intros HP t p0 D. destruct (P HP) as (l & p & V & E & D'). rewrite D' in D. injection D as <-. assert (Ex : exec st (NewSubgroup x t) = Ok (st_heap st ++ [OSubgroup l t], Some (length (st_heap st)))) by (cbn [exec]; unfold the; rewrite V, E; reflexivity).
    destruct (run_new prog _ _ _ Ex) as [H W]. unfold subgroup_of. rewrite W, H. unfold subgroup_value, sub_at. rewrite nth_app_new. unfold pat_at in *. destruct (nth_error (st_heap st) l) as [z|] eqn:N; [|discriminate]. rewrite (nth_app_old _ _ _ _ N). destruct z; try discriminate. injection E as ->. reflexivity.
  - intros g Hg. unfold subgroup_of, subgroup_value in Hg. destruct (var st x) as [l|] eqn:V; [|discriminate]. destruct (sub_at (st_heap st) l) as [[d t]|] eqn:S0; [|discriminate]. destruct (pat_at (st_heap st) d) as [p|] eqn:E; [|discriminate]. injection Hg as <-. split.
    + assert (Ex : exec st (CopySubgroup x) = Ok ((st_heap st ++ [OPattern (pattern_copy p)]) ++ [OSubgroup (length (st_heap st)) t], Some (length (st_heap st ++ [OPattern (pattern_copy p)])))).
      { cbn [exec]. unfold the. rewrite V, S0. cbn [bind fst]. unfold copy_subgroup, follow. rewrite S0. cbn [bind fst]. rewrite E. reflexivity. }
      destruct (run_new prog _ _ _ Ex) as [H W]. unfold subgroup_of. rewrite W, H. unfold subgroup_value, sub_at. rewrite nth_app_new. unfold pat_at. rewrite (nth_app_old _ _ _ _ (nth_app_new (st_heap st) _)). reflexivity.
    + assert (Ex : exec st (Description x) = Ok (st_heap st, Some d)) by (cbn [exec]; unfold the; rewrite V, S0; reflexivity). destruct (run_new prog _ _ _ Ex) as [H W]. apply description_ploc. exists d, d. split; [exact W|]. rewrite H. split; [|exact E]. unfold ploc. rewrite (pat_shape _ _ _ E). reflexivity.
Qed.
(** What a getter returned stays as it was, also after the subgroup is deleted from the list ... *)
Theorem C79_taken : forall before after x, let new := length before in
  (forall i g, careful (before ++ GetSubgroup x i :: after) -> subgroup_of (run empty_state (before ++ [GetSubgroup x i])) new = Some g -> subgroup_of (run empty_state (before ++ GetSubgroup x i :: after)) new = Some g) /\
  (forall f i b, careful (before ++ GetBits f x i :: after) -> bits_of (run empty_state (before ++ [GetBits f x i])) new = Some b -> bits_of (run empty_state (before ++ GetBits f x i :: after)) new = Some b).
Proof.
  intros before after x new. unfold new.
  assert (K : forall o, careful (before ++ o :: after) -> exists tags tags1, inv (borrowed before) (roots before) (run empty_state before) tags /\ inv (borrowed (before ++ [o])) (roots (before ++ [o])) (run empty_state (before ++ [o])) tags1 /\ grows tags tags1 /\
    (forall l L, nth_error tags1 l = Some (Part L RStored) -> nth_error (st_heap (run empty_state (before ++ o :: after))) l = nth_error (st_heap (run empty_state (before ++ [o]))) l) /\
    (forall y l, var (run empty_state (before ++ [o])) y = Some l -> var (run empty_state (before ++ o :: after)) y = Some l)).
  { intros o C. apply careful_assoc in C. pose proof (careful_prefix _ _ C) as C1. destruct (reach _ (careful_prefix _ _ C1)) as (tags & HI). destruct (inv_step _ _ _ _ o HI (fun y => careful_last before o y C1)) as (tags1 & HI1 & [_ G _ _ _]).
    exists tags, tags1. rewrite run_snoc, borrowed_snoc, roots_snoc. split; [exact HI|]. split; [exact HI1|]. split; [exact G|]. rewrite <- run_snoc in *. rewrite <- borrowed_snoc, <- roots_snoc in HI1. destruct (later _ after _ C HI1) as (tags2 & _ & _ & _ & S & V & _).
    rewrite <- app_assoc in S, V. auto. }
  split.
  - intros i g C Hg. destruct (K _ C) as (tags & tags1 & HI & HI1 & G & ST & VV). unfold subgroup_of in Hg. destruct (var (run empty_state (before ++ [GetSubgroup x i])) (length before)) as [l|] eqn:V; [|discriminate]. unfold subgroup_of. rewrite (VV _ _ V).
    assert (Q : exists L d t, shape_at (st_heap (run empty_state before)) l = Some (SSub d t) /\ nth_error tags l = Some (Part L RStored) /\ nth_error tags d = Some (Part L RStored) /\ st_heap (run empty_state (before ++ [GetSubgroup x i])) = st_heap (run empty_state before)).
    { destruct (exec (run empty_state before) (GetSubgroup x i)) as [[h r]|e] eqn:E; [|rewrite run_snoc in V; unfold step in V; rewrite E in V; unfold var in V; cbn [st_env] in V; rewrite <- (env_run before), nth_app_new in V; discriminate].
      cbn [exec] in E. destruct (the list_at AttributeError (run empty_state before) x) as [[L y]|e] eqn:EL; cbn [bind snd] in E; [|discriminate]. destruct (get_at (h_subs y) i) as [l'|e] eqn:Eg; cbn [bind] in E; [|discriminate]. injection E as <- <-.
      assert (Ex : exec (run empty_state before) (GetSubgroup x i) = Ok (st_heap (run empty_state before), Some l')) by (cbn [exec]; rewrite EL; cbn [bind snd]; rewrite Eg; reflexivity).
      destruct (run_new before _ _ _ Ex) as [H1 H2]. rewrite V in H2. injection H2 as <-. apply the_ok in EL. destruct EL as [_ Ey]. destruct (proj2 (proj2 (v_heap _ _ _ _ HI)) _ _ Ey) as (_ & _ & _ & _ & _ & _ & _ & F5 & _). rewrite Forall_forall in F5.
      destruct (F5 l) as (d & t & S0 & _ & T1 & T2); [unfold get_at in Eg; destruct (py_index (h_subs y) i); [|discriminate]; destruct (nth_error (h_subs y) n) eqn:En; [|discriminate]; injection Eg as ->; eapply nth_error_In; eauto|]. exists L, d, t. auto. }
    destruct Q as (L & d & t & S0 & T1 & T2 & EH). rewrite EH in *. unfold subgroup_value in *. apply sub_shape in S0. rewrite S0 in Hg. unfold sub_at in *. rewrite (ST _ _ (G _ _ T1)). destruct (nth_error (st_heap (run empty_state before)) l) as [[]|]; try discriminate. injection S0 as -> ->.
    unfold pat_at in *. rewrite (ST _ _ (G _ _ T2)). exact Hg.
  - intros f i b C Hb. destruct (K _ C) as (tags & tags1 & HI & HI1 & G & ST & VV). unfold bits_of in Hb. destruct (var (run empty_state (before ++ [GetBits f x i])) (length before)) as [l|] eqn:V; [|discriminate]. unfold bits_of. rewrite (VV _ _ V).
    assert (Q : exists L, nth_error tags l = Some (Part L RStored)).
    { destruct (exec (run empty_state before) (GetBits f x i)) as [[h r]|e] eqn:E; [|rewrite run_snoc in V; unfold step in V; rewrite E in V; unfold var in V; cbn [st_env] in V; rewrite <- (env_run before), nth_app_new in V; discriminate].
      cbn [exec] in E. destruct (the list_at AttributeError (run empty_state before) x) as [[L y]|e] eqn:EL; cbn [bind snd] in E; [|discriminate]. destruct (get_at (field f y) i) as [l'|e] eqn:Eg; cbn [bind] in E; [|discriminate]. injection E as <- <-.
      assert (Ex : exec (run empty_state before) (GetBits f x i) = Ok (st_heap (run empty_state before), Some l')) by (cbn [exec]; rewrite EL; cbn [bind snd]; rewrite Eg; reflexivity).
      destruct (run_new before _ _ _ Ex) as [H1 H2]. rewrite V in H2. injection H2 as <-. apply the_ok in EL. destruct EL as [_ Ey]. destruct (proj2 (proj2 (v_heap _ _ _ _ HI)) _ _ Ey) as (_ & _ & _ & F1 & F2 & F3 & F4 & _).
      assert (Il : In l (field f y)) by (unfold get_at in Eg; destruct (py_index (field f y) i); [|discriminate]; destruct (nth_error (field f y) n) eqn:En; [|discriminate]; injection Eg as ->; eapply nth_error_In; eauto). exists L.
      rewrite Forall_forall in F1, F2, F3, F4. destruct f; cbn [field] in Il; [apply (F1 l Il)|apply (F2 l Il)|apply (F3 l Il)|apply (F4 l Il)]. }
    destruct Q as (L & T1). unfold bits_at in *. rewrite (ST _ _ (G _ _ T1)). exact Hb.
Qed.
(** ... except the default rule, whose bitarrays are changed in place: they always show the present default rule. *)
Theorem C79_default_live : forall before after x v, let st := run empty_state before in list_of st x = Some v ->
  (careful (before ++ DefaultPositives x :: after) -> let st' := run empty_state (before ++ DefaultPositives x :: after) in
     exists v', list_of st' x = Some v' /\ bits_of st' (length before) = Some (sl_default_pos v')) /\
  (careful (before ++ DefaultNegatives x :: after) -> let st' := run empty_state (before ++ DefaultNegatives x :: after) in
     exists v', list_of st' x = Some v' /\ bits_of st' (length before) = Some (sl_default_neg v')).
Proof.
  intros before after x v st Hl. apply list_of_view in Hl. destruct Hl as (L & y & V & Ey & Ev).
  assert (K : forall o l, exec st o = Ok (st_heap st, Some l) -> careful (before ++ o :: after) -> let st' := run empty_state (before ++ o :: after) in
    exists y' v', var st' x = Some L /\ list_at (st_heap st') L = Some y' /\ view (st_heap st') y' = Some v' /\ h_dpos y' = h_dpos y /\ h_dneg y' = h_dneg y /\ var st' (length before) = Some l).
  { intros o l E C st'. apply careful_assoc in C. pose proof (careful_prefix _ _ C) as C1. destruct (reach _ C1) as (tags1 & HI1). destruct (run_new before o _ _ E) as [H1 H2]. destruct (later _ after _ C HI1) as (tags2 & _ & _ & _ & _ & VV & LL). rewrite <- app_assoc in VV, LL. fold st in H1. rewrite H1 in LL.
    assert (V1 : var (run empty_state (before ++ [o])) x = Some L) by (rewrite run_snoc; apply var_step; exact V). destruct (LL x L y v V1 Ey Ev) as (y' & Ey' & Ev' & D1 & D2). exists y'. eexists. split; [apply VV; exact V1|]. split; [exact Ey'|]. split; [exact Ev'|]. split; [exact D1|]. split; [exact D2|]. apply VV. exact H2. }
  split.
  - intros C st'. destruct (K (DefaultPositives x) (h_dpos y)) as (y' & v' & V' & Ey' & Ev' & D1 & D2 & W); [cbn [exec]; unfold the; rewrite V, Ey; reflexivity|exact C|]. fold st' in V', Ey', Ev', W. exists v'. split; [apply list_of_view; eauto|]. unfold bits_of. rewrite W, <- D1. apply (view_default _ _ _ Ev').
  - intros C st'. destruct (K (DefaultNegatives x) (h_dneg y)) as (y' & v' & V' & Ey' & Ev' & D1 & D2 & W); [cbn [exec]; unfold the; rewrite V, Ey; reflexivity|exact C|]. fold st' in V', Ey', Ev', W. exists v'. split; [apply list_of_view; eauto|]. unfold bits_of. rewrite W, <- D2. apply (view_default _ _ _ Ev').
Qed.

(** The getters show the parts of the list, from the start or (negative indexes) from the end. *)
Definition part (f : bits_field) (v : sglist) : list (list bool) :=
  match f with Positives => sl_pos v | Negatives => sl_neg v | OriginalPositives => sl_orig_pos v | OriginalNegatives => sl_orig_neg v end.
Lemma all_some_nth : forall {A B} (f : A -> option B) l r k, all_some f l = Some r -> nth_error r k = match nth_error l k with Some x => f x | None => None end.
Proof.
  induction l as [|x l IH]; intros r k E; cbn [all_some] in E; [injection E as <-; destruct k; reflexivity|]. destruct (f x) as [y|] eqn:Ef; [|discriminate]. destruct (all_some f l) as [r'|] eqn:Er; [|discriminate]. injection E as <-. destruct k as [|k]; cbn [nth_error]; [auto|apply IH; reflexivity].
Qed.
Lemma get_nat : forall {A} (l : list A) i, get_at l (Z.of_nat i) = match nth_error l i with Some x => Ok x | None => Err IndexError end.
Proof.
  intros A l i. unfold get_at, py_index. destruct (0 <=? Z.of_nat i)%Z eqn:E; [|lia]. destruct (Z.of_nat i <? Z.of_nat (length l))%Z eqn:E2; [rewrite Nat2Z.id; reflexivity|].
  assert (N : nth_error l i = None) by (apply nth_error_None; lia). rewrite N. reflexivity.
Qed.
Lemma get_neg : forall {A} (l : list A) i, 1 <= i -> get_at l (- Z.of_nat i) = if i <=? length l then match nth_error l (length l - i) with Some x => Ok x | None => Err IndexError end else Err IndexError.
Proof.
  intros A l i H. unfold get_at, py_index. destruct (0 <=? - Z.of_nat i)%Z eqn:E; [lia|]. destruct (0 <=? - Z.of_nat i + Z.of_nat (length l))%Z eqn:E2; destruct (i <=? length l) eqn:E3; try lia; auto.
  replace (Z.to_nat (- Z.of_nat i + Z.of_nat (length l))) with (length l - i) by lia. reflexivity.
Qed.
Lemma var_none : forall prog o e, exec (run empty_state prog) o = Err e -> var (run empty_state (prog ++ [o])) (length prog) = None.
Proof. intros prog o e E. rewrite run_snoc. unfold step. rewrite E. unfold var. cbn [st_env]. rewrite <- (env_run prog), nth_app_new. reflexivity. Qed.
Theorem C79_getters : forall prog x v, let after o := run empty_state (prog ++ [o]) in let new := length prog in list_of (run empty_state prog) x = Some v ->
  (forall i, subgroup_of (after (GetSubgroup x (Z.of_nat i))) new = nth_error (sl_subgroups v) i) /\
  (forall i, 1 <= i <= length (sl_subgroups v) -> subgroup_of (after (GetSubgroup x (- Z.of_nat i))) new = nth_error (sl_subgroups v) (length (sl_subgroups v) - i)) /\
  (forall f i, bits_of (after (GetBits f x (Z.of_nat i))) new = nth_error (part f v) i) /\
  (forall f i, 1 <= i <= length (part f v) -> bits_of (after (GetBits f x (- Z.of_nat i))) new = nth_error (part f v) (length (part f v) - i)) /\
  bits_of (after (DefaultPositives x)) new = Some (sl_default_pos v) /\ bits_of (after (DefaultNegatives x)) new = Some (sl_default_neg v).
Proof.
  intros prog x v after new Hl. unfold after, new. set (st := run empty_state prog) in *. apply list_of_view in Hl. destruct Hl as (L & y & V & Ey & Ev).
  assert (TH : the list_at AttributeError st x = Ok (L, y)) by (unfold the; rewrite V, Ey; reflexivity). pose proof (view_default _ _ _ Ev) as [D1 D2].
  assert (PS : all_some (subgroup_value (st_heap st)) (h_subs y) = Some (sl_subgroups v) /\ forall f, all_some (bits_at (st_heap st)) (field f y) = Some (part f v)).
  { unfold view in Ev. destruct (bits_at (st_heap st) (h_dpos y)); [|discriminate]. destruct (bits_at (st_heap st) (h_dneg y)); [|discriminate]. destruct (all_some (subgroup_value (st_heap st)) (h_subs y)) as [gs|]; [|discriminate].
    destruct (all_some (bits_at (st_heap st)) (h_pos y)) as [b1|] eqn:E1; [|discriminate]. destruct (all_some (bits_at (st_heap st)) (h_neg y)) as [b2|] eqn:E2; [|discriminate]. destruct (all_some (bits_at (st_heap st)) (h_opos y)) as [b3|] eqn:E3; [|discriminate]. destruct (all_some (bits_at (st_heap st)) (h_oneg y)) as [b4|] eqn:E4; [|discriminate].
    injection Ev as <-. split; [reflexivity|]. intros []; assumption. }
  destruct PS as [PS PB].
  assert (GS : forall i k, get_at (h_subs y) i = match nth_error (h_subs y) k with Some l => Ok l | None => Err IndexError end -> subgroup_of (run empty_state (prog ++ [GetSubgroup x i])) (length prog) = nth_error (sl_subgroups v) k).
  { intros i k Eg. rewrite (all_some_nth _ _ _ k PS). unfold subgroup_of. destruct (nth_error (h_subs y) k) as [l|].
    - assert (Ex : exec st (GetSubgroup x i) = Ok (st_heap st, Some l)) by (cbn [exec]; rewrite TH; cbn [bind snd]; rewrite Eg; reflexivity). destruct (run_new prog _ _ _ Ex) as [H1 H2]. rewrite H2, H1. reflexivity.
    - rewrite (var_none prog _ IndexError); [reflexivity|]. fold st. cbn [exec]. rewrite TH. cbn [bind snd]. rewrite Eg. reflexivity. }
  assert (GB : forall f i k, get_at (field f y) i = match nth_error (field f y) k with Some l => Ok l | None => Err IndexError end -> bits_of (run empty_state (prog ++ [GetBits f x i])) (length prog) = nth_error (part f v) k).
  { intros f i k Eg. rewrite (all_some_nth _ _ _ k (PB f)). unfold bits_of. destruct (nth_error (field f y) k) as [l|].
    - assert (Ex : exec st (GetBits f x i) = Ok (st_heap st, Some l)) by (cbn [exec]; rewrite TH; cbn [bind snd]; rewrite Eg; reflexivity). destruct (run_new prog _ _ _ Ex) as [H1 H2]. rewrite H2, H1. reflexivity.
    - rewrite (var_none prog _ IndexError); [reflexivity|]. fold st. cbn [exec]. rewrite TH. cbn [bind snd]. rewrite Eg. reflexivity. }
  split; [intros i; apply GS, get_nat|]. split; [intros i Hi; apply GS; rewrite (all_some_len _ _ _ PS) in *; rewrite get_neg by lia; destruct (i <=? length (h_subs y)) eqn:E; [reflexivity|lia]|].
  split; [intros f i; apply GB, get_nat|]. split; [intros f i Hi; apply GB; rewrite (all_some_len _ _ _ (PB f)) in *; rewrite get_neg by lia; destruct (i <=? length (field f y)) eqn:E; [reflexivity|lia]|].
  split.
  - assert (Ex : exec st (DefaultPositives x) = Ok (st_heap st, Some (h_dpos y))) by (cbn [exec]; rewrite TH; reflexivity). destruct (run_new prog _ _ _ Ex) as [H1 H2]. unfold bits_of. rewrite H2, H1. exact D1.
  - assert (Ex : exec st (DefaultNegatives x) = Ok (st_heap st, Some (h_dneg y))) by (cbn [exec]; rewrite TH; reflexivity). destruct (run_new prog _ _ _ Ex) as [H1 H2]. unfold bits_of. rewrite H2, H1. exact D2.
Qed.

(** * Concrete programs *)
Open Scope string_scope.
Open Scope list_scope.
Open Scope nat_scope.
Definition careful_dec (prog : list op) : bool :=
  forallb (fun k => match nth_error prog k with
                    | Some o => match target o with Some x => negb (nth x (borrowed (firstn k prog)) false) | None => true end
                    | None => true
                    end) (seq 0 (length prog)).
Lemma careful_by_dec : forall prog, careful_dec prog = true -> careful prog.
Proof.
  intros prog H before o after x -> T. unfold careful_dec in H. rewrite forallb_forall in H. specialize (H (length before)). rewrite nth_error_app2, Nat.sub_diag in H by lia. cbn [nth_error] in H. rewrite T in H.
  rewrite firstn_app, Nat.sub_diag, firstn_all, app_nil_r in H. destruct (nth x (borrowed before) false); auto. exfalso. assert (E : negb true = true) by (apply H, in_seq; rewrite app_length; cbn [length]; lia). discriminate.
Qed.
Local Definition sa := Sel "a" EQUAL (VStr "x"). Local Definition sb := Sel "b" EQUAL (VStr "y"). Local Definition stg := Sel "t" EQUAL (VStr "p").
(** positives = bitarray('110'); negatives = bitarray('001'); l = SubgroupList(positives, negatives, 3); p = Pattern([sa]); g = Subgroup(p, t) *)
Local Definition setup : list op := [NewBits [true; true; false]; NewBits [false; false; true]].
Local Definition build : list op := [NewPattern [sa]; NewSubgroup 3 stg; NewBits [true; false; false]; NewBits [false; false; true]; AddSubgroup 2 4 5 6].
Local Definition sl0 : sglist := SL [true; true; false] [false; false; true] (2, 3) [] [] [] [] [].
(** The client adds a selector to the pattern of the subgroup, sets bits of all its bitarrays, copies, adds again and deletes. *)
Local Definition after1 : list op :=
  build ++ [AddSelector 3 sb; SetBit 5 1 true; SetBit 0 0 false; CopySubgroup 4; Description 11; RemoveSelector 3 sa; DefaultPositives 2; AddSubgroup 2 4 5 6; GetSubgroup 2 1; DeleteLast 2].
Theorem C79_nonvacuous :
  careful (setup ++ NewList 0 1 3 :: after1) /\
  bits_of (run empty_state setup) 0 = Some [true; true; false] /\ bits_of (run empty_state setup) 1 = Some [false; false; true] /\ sl_init [true; true; false] [false; false; true] 3 = Ok sl0 /\
  (let st := run empty_state (setup ++ NewList 0 1 3 :: after1) in
   list_of st 2 = Some (SL [false; true; false] [false; false; false] (2, 3) [SG [sa] stg] [[true; false; false]] [[false; false; true]] [[true; false; false]] [[false; false; true]]) /\
   subgroup_of st 4 = Some (SG [sb] stg) /\ subgroup_of st 11 = Some (SG [sa; sb] stg) /\ description_of st 12 = Some [sa; sb] /\
   bits_of st 5 = Some [true; true; false] /\ bits_of st 14 = Some [false; true; false] /\ subgroup_of st 16 = Some (SG [sb] stg)) /\
  hits (setup ++ NewList 0 1 3 :: build) (AddSelector 3 sb) 4.
Proof.
  split; [apply careful_by_dec; reflexivity|]. split; [reflexivity|]. split; [reflexivity|]. split; [reflexivity|]. split; [vm_compute; repeat (split; [reflexivity|]); reflexivity|].
  exists 3. split; [reflexivity|]. split; [|reflexivity]. exists 5, [sa]. split; reflexivity.
Qed.

(** Without [careful]: a bitarray, a subgroup or a default rule obtained from the list and changed by the client changes the list. *)
Theorem C79_refuted :
  let prog extra := (setup ++ NewList 0 1 3 :: build) ++ extra in
  let shown extra := list_of (run empty_state (prog extra)) 2 in
  let history extra := Some (sl_history sl0 (calls (run empty_state (setup ++ [NewList 0 1 3])) (build ++ extra) 2)) in
  (~ careful (prog [GetBits Positives 2 0; SetBit 8 0 false; DeleteLast 2]) /\
   shown [GetBits Positives 2 0; SetBit 8 0 false; DeleteLast 2] <> history [GetBits Positives 2 0; SetBit 8 0 false; DeleteLast 2] /\
   option_map sl_default_pos (shown [GetBits Positives 2 0; SetBit 8 0 false; DeleteLast 2]) = Some [false; true; false]) /\
   (~ careful (prog [GetSubgroup 2 0; Description 8; AddSelector 9 sb]) /\
   option_map sl_subgroups (shown [GetSubgroup 2 0; Description 8; AddSelector 9 sb]) = Some [SG [sa; sb] stg] /\
   option_map sl_subgroups (history [GetSubgroup 2 0; Description 8; AddSelector 9 sb]) = Some [SG [sa] stg]) /\
   (~ careful (prog [DefaultNegatives 2; SetBit 8 0 true]) /\
   option_map sl_default_neg (shown [DefaultNegatives 2; SetBit 8 0 true]) = Some [true; false; false]).
Proof.
  cbv zeta. assert (N : forall p extra o x, target o = Some x -> nth x (borrowed (p ++ extra)) false = true -> forall r, ~ careful (p ++ extra ++ o :: r)).
  { intros p extra o x T B r C. specialize (C (p ++ extra) o r x (app_assoc _ _ _) T). congruence. }
  split; [|split].
  - split; [apply (N _ [GetBits Positives 2 0] (SetBit 8 0 false) 8); reflexivity|]. split; [vm_compute; discriminate|reflexivity].
  - split; [apply (N _ [GetSubgroup 2 0; Description 8] (AddSelector 9 sb) 9); reflexivity|]. split; reflexivity.
  - split; [apply (N _ [DefaultNegatives 2] (SetBit 8 0 true) 8); reflexivity|reflexivity].
Qed.
