(** The bitarrays that VLSD writes have one bit per row of the dataset. *)
From Verif Require Import VLSDModel VLSDTrace OrderFacts.
Open Scope list_scope.
Open Scope nat_scope.

Section Length.
  Context {V : Type} (c : vl_config V) (n : nat).
  Notation vl := (vlist (list bool) V).
  Notation state := (vl_state (list bool) V).
  Definition full (v : vl) : Prop := length (vl_seq_tp v) = n /\ length (vl_seq_fp v) = n.
  Definition full_line (r : vl_record (list bool) V) : Prop := length (vr_seq_tp r) = n /\ length (vr_seq_fp r) = n.
  Definition full_file (st : state) : Prop := match vs_file st with Some l => Forall full_line l | None => True end.

  Lemma bits_set_length : forall b i b', bits_set b i = Ok b' -> length b' = length b.
  Proof.
    intros b i b'. unfold bits_set. destruct (i <? length b) eqn:E; [|discriminate]. apply Nat.ltb_lt in E. intros H. assert (E' : b' = firstn i b ++ true :: skipn (S i) b) by congruence. rewrite E'.
    rewrite app_length. change (length (true :: skipn (S i) b)) with (S (length (skipn (S i) b))). rewrite firstn_length, skipn_length. lia.
  Qed.
  Lemma fold_set_length : forall l b b', fold_res bits_set l b = Ok b' -> length b' = length b.
  Proof.
    induction l as [|i l IH]; intros b b' H; cbn [fold_res] in H; [injection H as <-; auto|].
    destruct (bits_set b i) as [b1|] eqn:E; cbn [bind] in H; [|discriminate]. rewrite (IH _ _ H). eapply bits_set_length; eauto.
  Qed.
  Lemma init_full : forall sels tp fp (q : V) v, vlb_init sels tp fp n q = Ok v -> full v.
  Proof.
    intros sels tp fp q v. unfold vlb_init. destruct (fold_res bits_set tp (bits_zero n)) as [a|] eqn:A; cbn [bind]; [|discriminate].
    destruct (fold_res bits_set fp (bits_zero n)) as [b|] eqn:B; cbn [bind]; [|discriminate]. intros H. injection H as <-.
    apply fold_set_length in A, B. unfold bits_zero in A, B. rewrite repeat_length in A, B. split; auto.
  Qed.
  Lemma and_length : forall a b, length a = n -> length b = n -> length (bits_and a b) = n.
  Proof. intros a b A B. unfold bits_and. rewrite map_length, combine_length, A, B. apply Nat.min_id. Qed.
  Lemma join_full : forall qf a b flag v, full a -> full b -> vlb_join qf a b flag = Ok (Some v) -> full v.
  Proof.
    intros qf a b flag v [A1 A2] [B1 B2]. unfold vlb_join. destruct (negb _); [discriminate|]. cbv zeta. destruct (_ || _); [|discriminate].
    destruct (last_elem (vl_sels b)); cbn [bind]; [|discriminate]. destruct (qf _ _); cbn [bind]; [|discriminate]. intros H. injection H as <-. split; apply and_length; auto.
  Qed.
  Lemma handle_full : forall t TP FP st v st', full_file st -> full v -> vl_handle c t TP FP st v = Ok st' -> full_file st'.
  Proof.
    intros t TP FP st v st' F [A B]. unfold vl_handle. cbv zeta. destruct (vc_measure c _ _ TP FP) as [q|]; cbn [bind]; [|discriminate]. intros H. injection H as <-.
    unfold full_file in *. destruct (vc_reaches c q); cbn [vs_file]; auto. destruct (vc_write c); auto. destruct (vs_file st) as [l|]; auto.
    apply Forall_app. split; auto. constructor; [split; auto|constructor].
  Qed.
  Lemma handles_full : forall t TP FP L st st', full_file st -> Forall full L -> fold_res (vl_handle c t TP FP) L st = Ok st' -> full_file st'.
  Proof.
    induction L as [|v L IH]; intros st st' F G H; cbn [fold_res] in H; [injection H as <-; auto|]. inversion G; subst.
    destruct (vl_handle c t TP FP st v) as [st1|] eqn:E; cbn [bind] in H; [|discriminate]. refine (IH _ _ _ H3 H). eapply handle_full; eauto.
  Qed.
  Lemma sort_full : forall k (l : list vl), Forall full l -> Forall full (vl_sort c k l).
  Proof.
    intros k l F. rewrite Forall_forall in *. intros x I. apply F. destruct k; cbn [vl_sort] in I; auto; apply sort_by_in in I; auto.
  Qed.
  Notation matrix := (list (selector * list (selector * vl))).
  Definition full_matrix (M : matrix) : Prop := Forall (fun row => Forall (fun e => full (snd e)) (snd row)) M.
  Lemma assoc_forall : forall {A} (P : A -> Prop) k (l : list (selector * A)) x, Forall (fun e => P (snd e)) l -> sel_assoc k l = Some x -> P x.
  Proof.
    intros A P k. induction l as [|[s y] l IH]; intros x F E; cbn [sel_assoc] in E; [discriminate|]. inversion F; subst. destruct (sel_eq _ _); [injection E as <-; auto|auto].
  Qed.
  Lemma upd_forall : forall {A} (P : A -> Prop) k f (l : list (selector * A)), (forall x, P x -> P (f x)) -> Forall (fun e => P (snd e)) l -> Forall (fun e => P (snd e)) (sel_assoc_upd k f l).
  Proof.
    intros A P k f l H. induction l as [|[s y] l IH]; intros F; cbn [sel_assoc_upd]; auto. inversion F; subst. destruct (sel_eq _ _); constructor; cbn [snd] in *; auto.
  Qed.
  Lemma set_forall : forall {A} (P : A -> Prop) k (v : A) l, P v -> Forall (fun e => P (snd e)) l -> Forall (fun e => P (snd e)) (dict_set k v l).
  Proof.
    intros A P k v l H F. unfold dict_set. destruct (sel_assoc k l); [apply upd_forall; auto|]. apply Forall_app. split; auto.
  Qed.
  Lemma matrix_set_full : forall M a b v, full_matrix M -> full v -> full_matrix (matrix_set M a b v).
  Proof.
    intros M a b v F G. unfold matrix_set. destruct (sel_assoc a M) as [row|].
    - apply (upd_forall (fun row => Forall (fun e => full (snd e)) row)); auto. intros row' H. apply (set_forall full); auto.
    - apply Forall_app. split; auto. constructor; [|constructor]. cbn [snd]. constructor; auto.
  Qed.
  Lemma step_full : forall TP FP x M y M', full x -> full y -> full_matrix M -> matrix_step with_bitsets c TP FP x M y = Ok M' -> full_matrix M'.
  Proof.
    intros TP FP x M y M' Fx Fy FM. unfold matrix_step. destruct (last_elem (vl_sels x)); cbn [bind]; [|discriminate]. destruct (last_elem (vl_sels y)); cbn [bind]; [|discriminate].
    destruct (vi_join with_bitsets _ x y true) as [[v|]|] eqn:E; cbn [bind]; try discriminate; intros H; injection H as <-; auto.
    destruct (vc_oe_reaches c (vl_quality v)); auto. apply matrix_set_full; auto. eapply join_full; [exact Fx|exact Fy|exact E].
  Qed.
  Lemma build_full : forall TP FP l M M', Forall full l -> full_matrix M -> build_matrix with_bitsets c TP FP l M = Ok M' -> full_matrix M'.
  Proof.
    induction l as [|x ys IH]; intros M M' F FM H; cbn [build_matrix] in H; [injection H as <-; auto|]. inversion F as [|? ? Fx Fy]; subst.
    destruct (fold_res (matrix_step with_bitsets c TP FP x) ys M) as [M1|] eqn:E; cbn [bind] in H; [|discriminate]. eapply IH; [exact Fy| |exact H].
    clear H IH F. revert M FM E. induction ys as [|y ys IH]; intros M FM E; cbn [fold_res] in E; [injection E as <-; auto|]. inversion Fy; subst.
    destruct (matrix_step with_bitsets c TP FP x M y) as [M2|] eqn:E2; cbn [bind] in E; [|discriminate]. exact (IH H2 M2 (step_full TP FP x M y M2 Fx H1 FM E2) E).
  Qed.
  Lemma extend_full : forall M t TP FP x lx ys W st W' st', full x -> Forall full ys -> Forall full W -> full_file st ->
    fold_res (extend with_bitsets c M t TP FP x lx) ys (W, st) = Ok (W', st') -> Forall full W' /\ full_file st'.
  Proof.
    intros M t TP FP x lx. induction ys as [|y ys IH]; intros W st W' st' Fx Fy FW Fs H; cbn [fold_res] in H; [injection H as <- <-; auto|]. inversion Fy; subst.
    destruct (extend with_bitsets c M t TP FP x lx (W, st) y) as [[W1 st1]|] eqn:E; cbn [bind] in H; [|discriminate].
    assert (K : Forall full W1 /\ full_file st1); [|destruct K as [K1 K2]; exact (IH _ _ _ _ Fx H3 K1 K2 H)].
    unfold extend in E. destruct (last_elem (vl_sels y)) as [ly|]; cbn [bind] in E; [|discriminate]. destruct (query_matrix M lx ly) as [m|]; [|injection E as <- <-; auto].
    destruct (vc_oe_reaches c (vl_quality m)); [|injection E as <- <-; auto]. destruct (vi_join with_bitsets _ x y true) as [[v|]|] eqn:Ej; cbn [bind] in E; [|injection E as <- <-; auto|discriminate].
    destruct (vc_oe_reaches c (vl_quality v)); [|injection E as <- <-; auto]. assert (Fv : full v) by (eapply join_full; [exact Fx|exact H2|exact Ej]).
    destruct (vl_handle c t TP FP st v) as [st2|] eqn:Eh; cbn [bind] in E; [|discriminate]. injection E as <- <-. split; [apply Forall_app; split; auto|]. eapply handle_full; eauto.
  Qed.
  Lemma search_full : forall M t TP FP fuel P st st', Forall full P -> full_file st -> search with_bitsets c M t TP FP fuel P st = Ok st' -> full_file st'.
  Proof.
    intros M t TP FP. induction fuel as [|f IH]; intros P st st' FP' Fs H; [discriminate|]. cbn [search] in H. revert st Fs H.
    induction P as [|x rest IHP]; intros st Fs H; [injection H as <-; auto|]. inversion FP' as [|? ? Fx Fr]; subst. destruct rest as [|y rest]; [injection H as <-; auto|].
    destruct (last_elem (vl_sels x)) as [lx|]; cbn [bind] in H; [|discriminate].
    destruct (fold_res (extend with_bitsets c M t TP FP x lx) (y :: rest) ([], st)) as [[W st1]|] eqn:E; cbn [bind] in H; [|discriminate].
    destruct (extend_full M t TP FP x lx _ _ _ _ _ Fx Fr (Forall_nil _) Fs E) as [FW Fs1].
    set (k := match W with [] => _ | _ => _ end) in H. assert (K : forall st2, k = Ok st2 -> full_file st2).
    { intros st2 Ek. unfold k in Ek. destruct W as [|w W]; [injection Ek as <-; auto|]. eapply IH; [|exact Fs1|exact Ek]. apply sort_full; auto. }
    clearbody k. destruct k as [st2|]; cbn [bind] in H; [|discriminate]. apply (IHP Fr st2 (K st2 eq_refl) H).
  Qed.
  Lemma search_from_full : forall M t TP FP st x st', full_matrix M -> full_file st -> search_from with_bitsets c M t TP FP st x = Ok st' -> full_file st'.
  Proof.
    intros M t TP FP st x st' FM Fs H. unfold search_from in H. destruct (last_elem (vl_sels x)) as [s|]; cbn [bind] in H; [|discriminate].
    destruct (sel_assoc s M) as [row|] eqn:E; [|injection H as <-; auto]. cbv zeta in H.
    assert (FR : Forall full (vl_sort c (vc_sort_other c) (map snd row))).
    { apply sort_full. apply Forall_map. exact (assoc_forall (fun row => Forall (fun e => full (snd e)) row) s M row FM E). }
    destruct (fold_res (vl_handle c t TP FP) _ st) as [st1|] eqn:E1; cbn [bind] in H; [|discriminate]. eapply search_full; [exact FR| |exact H]. eapply handles_full; eauto.
  Qed.
End Length.

Lemma s1_full : forall V (c : vl_config V) df mask tcol TP FP l, generate_s1 with_bitsets c df mask tcol TP FP = Ok l -> Forall (full (Z.to_nat (TP + FP))) l.
Proof.
  intros V c df mask tcol TP FP l H. unfold generate_s1 in H. 
  destruct (fold_res _ (other_columns df tcol) []) as [l1|] eqn:E; cbn [bind] in H; [|discriminate]. injection H as <-. apply sort_full.
  assert (K : forall cols acc l1, Forall (full (Z.to_nat (TP + FP))) acc -> 
    fold_res (fun acc nc => fold_res (s1_value with_bitsets c mask TP FP (fst nc) (snd nc)) (group_values (snd nc)) acc) cols acc = Ok l1 -> Forall (full (Z.to_nat (TP + FP))) l1).
  2: { eapply K; [|exact E]. constructor. }
  clear. induction cols as [|nc cols IH]; intros acc l1 F E; cbn [fold_res] in E; [injection E as <-; auto|].
  destruct (fold_res _ (group_values (snd nc)) acc) as [acc1|] eqn:E1; cbn [bind] in E; [|discriminate]. eapply IH; [|exact E]. clear E IH.
  revert acc F E1. generalize (group_values (snd nc)). induction l as [|v l IH]; intros acc F E1; cbn [fold_res] in E1; [injection E1 as <-; auto|].
  destruct (s1_value with_bitsets c mask TP FP (fst nc) (snd nc) acc v) as [acc2|] eqn:E2; cbn [bind] in E1; [|discriminate]. eapply IH; [|exact E1].
  unfold s1_value in E2. cbv zeta in E2. destruct (vc_oe c _ _ TP FP) as [o|]; cbn [bind] in E2; [|discriminate]. destruct (vc_oe_reaches c o); [|injection E2 as <-; auto].
  destruct (vi_init with_bitsets _ _ _ _ o) as [x|] eqn:Ex; cbn [bind] in E2; [|discriminate]. injection E2 as <-. apply Forall_app. split; auto. constructor; [|constructor].
  eapply init_full. exact Ex.
Qed.
Theorem vlsd_full : forall V (c : vl_config V) st df tcol tval st' ls, vc_write c = true -> vlsd_fit with_bitsets c st df tcol tval = Ok st' -> vs_file st' = Some ls ->
  Forall (full_line (df_n df)) ls.
Proof.
  intros V c st df tcol tval st' ls W H E. unfold vlsd_fit in H. destruct (all_nominal df); cbn [negb] in H; [|discriminate]. rewrite W in H. cbv zeta in H.
  destruct (target_mask df tcol (VStr tval)) as [mask|]; cbn [bind] in H; [|discriminate]. unfold population in H.
  set (T := Z.of_nat (length (filter (fun b => b) mask))) in H. 
  destruct (generate_s1 with_bitsets c df mask tcol T (Z.of_nat (df_n df) - T)) as [s1|] eqn:E1; cbn [bind] in H; [|discriminate].
  apply s1_full in E1. replace (Z.to_nat (T + (Z.of_nat (df_n df) - T))) with (df_n df) in E1 by lia.
  destruct (fold_res _ s1 _) as [st1|] eqn:E2 in H; cbn [bind] in H; [|discriminate]. 
  assert (F1 : full_file (df_n df) st1) by (eapply handles_full; [|exact E1|exact E2]; constructor).
  destruct (build_matrix with_bitsets c T _ s1 []) as [M|] eqn:EM; cbn [bind] in H; [|discriminate].
  assert (FM : full_matrix (df_n df) M) by (eapply build_full; [exact E1|constructor|exact EM]).
  assert (K : full_file (df_n df) st'); [|unfold full_file in K; rewrite E in K; exact K].
  clear -FM F1 H. revert st1 F1 H. generalize (removelast s1). induction l as [|x l IH]; intros st1 F1 H; cbn [fold_res] in H; [injection H as <-; auto|].
  destruct (search_from with_bitsets c M _ T _ st1 x) as [st2|] eqn:E; cbn [bind] in H; [|discriminate]. eapply IH; [|exact H]. eapply search_from_full; [exact FM|exact F1|exact E].
Qed.
