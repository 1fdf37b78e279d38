(** A run of VLSD visits the same vertical lists whatever the counters and the output file
    were before (both implementations). *)
From Verif Require Export VLSDModel.
Open Scope list_scope.
Open Scope nat_scope.

Section Trace.
  Context {Seq V : Type}.
  Variable impl : vl_impl Seq.
  Variable c : vl_config V.
  Notation vl := (vlist Seq V).
  Notation state := (vl_state Seq V).

  Definition ended (r : option exn) (x : res state) : res state :=
    do st <- x; match r with None => Ok st | Some e => Err e end.
  Definition traced (tsel : selector) (TP FP : Z) (run : state -> res state) : Prop :=
    exists L r, forall st, run st = ended r (fold_res (vl_handle c tsel TP FP) L st).
  Lemma fold_app : forall {A S} (f : S -> A -> res S) l m s, fold_res f (l ++ m) s = do s' <- fold_res f l s; fold_res f m s'.
  Proof. intros A S f l. induction l as [|a l IH]; intros m s; cbn [fold_res app]; auto. destruct (f s a); cbn [bind]; auto. Qed.
  Lemma traced_ok : forall t TP FP, traced t TP FP (fun st => Ok st).
  Proof. intros. exists [], None. intros st. reflexivity. Qed.
  Lemma traced_err : forall t TP FP e, traced t TP FP (fun _ => Err e).
  Proof. intros t TP FP e. exists [], (Some e). intros st. reflexivity. Qed.
  Lemma traced_fold : forall t TP FP L, traced t TP FP (fun st => fold_res (vl_handle c t TP FP) L st).
  Proof. intros. exists L, None. intros st. unfold ended. destruct (fold_res _ _ _); reflexivity. Qed.
  Lemma traced_bind : forall t TP FP f g, traced t TP FP f -> traced t TP FP g -> traced t TP FP (fun st => do st' <- f st; g st').
  Proof.
    intros t TP FP f g (L1 & r1 & E1) (L2 & r2 & E2). destruct r1 as [e|].
    - exists L1, (Some e). intros st. rewrite E1. unfold ended. destruct (fold_res _ _ _); reflexivity.
    - exists (L1 ++ L2), r2. intros st. rewrite E1. unfold ended. rewrite fold_app. destruct (fold_res _ L1 st); cbn [bind]; auto. rewrite E2. reflexivity.
  Qed.
  Lemma traced_ext : forall t TP FP f g, traced t TP FP f -> (forall st, g st = f st) -> traced t TP FP g.
  Proof. intros t TP FP f g (L & r & E) H. exists L, r. intros st. rewrite H. auto. Qed.

  Lemma extend_trace : forall M t TP FP x lx ys W, exists L r W', forall st,
    fold_res (extend impl c M t TP FP x lx) ys (W, st) =
      do st' <- fold_res (vl_handle c t TP FP) L st; match r with None => Ok (W', st') | Some e => Err e end.
  Proof.
    intros M t TP FP x lx ys. induction ys as [|y ys IH]; intros W; cbn [fold_res].
    - exists [], None, W. reflexivity.
    - unfold extend at 1. destruct (last_elem (vl_sels y)) as [ly|e]; cbn [bind]; [|exists [], (Some e), W; reflexivity].
      destruct (query_matrix M lx ly) as [m|]; [|cbn [bind]; apply IH].
      destruct (vc_oe_reaches c (vl_quality m)); [|cbn [bind]; apply IH].
      destruct (vi_join impl (join_oe c TP FP) x y true) as [[v|]|e]; cbn [bind]; [| |exists [], (Some e), W; reflexivity].
      + destruct (vc_oe_reaches c (vl_quality v)); [|cbn [bind]; apply IH].
        destruct (IH (W ++ [v])) as (L & r & W' & E). exists (v :: L), r, W'. intros st. cbn [fold_res].
        destruct (vl_handle c t TP FP st v) as [st'|e]; cbn [bind]; auto.
      + apply IH.
  Qed.
  Lemma search_trace : forall M t TP FP fuel P, traced t TP FP (search impl c M t TP FP fuel P).
  Proof.
    intros M t TP FP fuel. induction fuel as [|f IH]; intros P; [apply traced_err|].
    cbn [search]. induction P as [|x rest IHP]; [apply traced_ok|]. destruct rest as [|y rest]; [apply traced_ok|].
    destruct (last_elem (vl_sels x)) as [lx|e]; cbn [bind]; [|apply traced_err].
    destruct (extend_trace M t TP FP x lx (y :: rest) []) as (L & r & W & E).
    destruct r as [e|].
    - exists L, (Some e). intros st. rewrite E. unfold ended. destruct (fold_res _ L st); reflexivity.
    - assert (TW : traced t TP FP (fun st' => match W with [] => Ok st' | _ :: _ => search impl c M t TP FP f (vl_sort c (vc_sort_other c) W) st' end)).
      { destruct W; [apply traced_ok|apply IH]. }
      pose proof (traced_bind _ _ _ _ _ (traced_fold t TP FP L) (traced_bind _ _ _ _ _ TW IHP)) as T.
      eapply traced_ext; [exact T|]. intros st. cbn beta. rewrite E. destruct (fold_res _ L st) as [st'|e]; cbn [bind]; auto.
  Qed.
  Lemma search_from_trace : forall M t TP FP xs, traced t TP FP (fun st => fold_res (search_from impl c M t TP FP) xs st).
  Proof.
    intros M t TP FP xs. induction xs as [|x xs IH]; [apply traced_ok|]. cbn [fold_res]. apply (traced_bind _ _ _ (fun st => search_from impl c M t TP FP st x)); auto.
    unfold search_from. destruct (last_elem (vl_sels x)) as [s|e]; cbn [bind]; [|apply traced_err].
    destruct (sel_assoc s M) as [row|]; [|apply traced_ok]. cbn zeta. apply traced_bind; [apply traced_fold|apply search_trace].
  Qed.
  Definition cleared (st : state) : state := if vc_write c then VS (vs_selected st) (vs_unselected st) (Some []) else st.
  Lemma fit_trace : forall df tcol tval, exists t TP FP L r, forall st,
    vlsd_fit impl c st df tcol tval = ended r (fold_res (vl_handle c t TP FP) L (cleared st)).
  Proof.
    intros df tcol tval. unfold vlsd_fit. exists (Sel tcol EQUAL (VStr tval)).
    destruct (negb (all_nominal df)); [exists 0%Z, 0%Z, [], (Some DatasetAttributeTypeError); intros; reflexivity|].
    destruct (target_mask df tcol (VStr tval)) as [mask|e]; cbn [bind]; [|exists 0%Z, 0%Z, [], (Some e); intros; reflexivity].
    destruct (population df mask) as [TP FP]. exists TP, FP. fold (cleared).
    destruct (generate_s1 impl c df mask tcol TP FP) as [s1|e]; cbn [bind]; [|exists [], (Some e); intros; reflexivity].
    assert (T : traced (Sel tcol EQUAL (VStr tval)) TP FP (fun st => do st' <- fold_res (vl_handle c (Sel tcol EQUAL (VStr tval)) TP FP) s1 st;
      do M <- build_matrix impl c TP FP s1 []; fold_res (search_from impl c M (Sel tcol EQUAL (VStr tval)) TP FP) (removelast s1) st')).
    { apply traced_bind; [apply traced_fold|]. destruct (build_matrix impl c TP FP s1 []) as [M|e]; cbn [bind]; [apply search_from_trace|apply traced_err]. }
    destruct T as (L & r & E). exists L, r. intros st. apply E.
  Qed.

  (** What [vl_handle] does to the counters and the file, as a function of the visited lists. *)
  Definition vl_good (TP FP : Z) (v : vl) : bool :=
    match vc_measure c (Z.of_nat (vl_tp v)) (Z.of_nat (vl_fp v)) TP FP with Ok q => vc_reaches c q | Err _ => false end.
  Definition vl_lines (t : selector) (TP FP : Z) (L : list vl) : list (vl_record Seq V) :=
    flat_map (fun v => match vc_measure c (Z.of_nat (vl_tp v)) (Z.of_nat (vl_fp v)) TP FP with
                       | Ok q => if vc_reaches c q then [VRec (Rec (SG (pattern_init (vl_sels v)) t) q (Z.of_nat (vl_tp v)) (Z.of_nat (vl_fp v)) TP FP)
                                                   (vl_seq_tp v) (vl_seq_fp v) (vl_quality v)] else []
                       | Err _ => [] end) L.
  Lemma handle_fold : forall t TP FP L st st', fold_res (vl_handle c t TP FP) L st = Ok st' ->
    (forall v, In v L -> exists q, vc_measure c (Z.of_nat (vl_tp v)) (Z.of_nat (vl_fp v)) TP FP = Ok q) /\
    st' = VS (vs_selected st + length (filter (vl_good TP FP) L)) (vs_unselected st + length (filter (fun v => negb (vl_good TP FP v)) L))
             (if vc_write c then match vs_file st with Some l => Some (l ++ vl_lines t TP FP L) | None => None end else vs_file st).
  Proof.
    intros t TP FP L. induction L as [|v L IH]; intros st st' E.
    - cbn in E. injection E as <-. split; [intros v []|]. cbn [filter length vl_lines flat_map]. destruct st as [s u f]; cbn [vs_selected vs_unselected vs_file].
      rewrite !Nat.add_0_r. destruct (vc_write c), f; rewrite ?app_nil_r; reflexivity.
    - cbn [fold_res] in E. unfold vl_handle in E at 1. cbn [filter]. cbn [vl_lines flat_map]. fold (vl_lines t TP FP L).
      destruct (vc_measure c (Z.of_nat (vl_tp v)) (Z.of_nat (vl_fp v)) TP FP) as [q|e] eqn:Eq; cbn [bind] in E; [|discriminate].
      assert (Eg : vl_good TP FP v = vc_reaches c q) by (unfold vl_good; rewrite Eq; reflexivity). rewrite Eg.
      apply IH in E. destruct E as [H E]. split; [intros w [<-|Iw]; eauto|]. rewrite E. clear E.
      destruct (vc_reaches c q); cbn [negb length vs_selected vs_unselected vs_file app]; f_equal; try lia.
      destruct (vc_write c); auto. destruct (vs_file st); auto. rewrite <- ?app_assoc. reflexivity.
  Qed.
  Lemma handle_fold_ok : forall t TP FP (L : list vl), (forall v, In v L -> exists q, vc_measure c (Z.of_nat (vl_tp v)) (Z.of_nat (vl_fp v)) TP FP = Ok q) ->
    forall st, exists st', fold_res (vl_handle c t TP FP) L st = Ok st'.
  Proof.
    intros t TP FP L. induction L as [|v L IH]; intros H st; cbn [fold_res]; [eauto|]. destruct (H v (or_introl eq_refl)) as [q Eq].
    unfold vl_handle at 1. rewrite Eq. cbn [bind]. apply IH. intros w Iw. apply H. right; auto.
  Qed.
  Lemma fit_again : forall df tcol tval st st1, vlsd_fit impl c st df tcol tval = Ok st1 ->
    exists st2, vlsd_fit impl c st1 df tcol tval = Ok st2 /\ vs_file st2 = vs_file st1 /\
      vs_selected st <= vs_selected st1 /\ vs_unselected st <= vs_unselected st1 /\
      vs_selected st2 - vs_selected st1 = vs_selected st1 - vs_selected st /\ vs_unselected st2 - vs_unselected st1 = vs_unselected st1 - vs_unselected st.
  Proof.
    intros df tcol tval st st1 E. destruct (fit_trace df tcol tval) as (t & TP & FP & L & r & H). rewrite H in E. rewrite H.
    unfold ended in *. destruct (fold_res (vl_handle c t TP FP) L (cleared st)) as [st'|] eqn:F; cbn [bind] in E; [|discriminate]. destruct r; [discriminate|]. injection E as ->.
    apply handle_fold in F. destruct F as [Q F]. destruct (handle_fold_ok t TP FP L Q (cleared st1)) as [st2 F2]. rewrite F2. cbn [bind].
    exists st2. split; auto. apply handle_fold in F2. destruct F2 as [_ ->]. unfold cleared in *. destruct (vc_write c); rewrite F; cbn [vs_selected vs_unselected vs_file]; repeat split; auto; lia.
  Qed.
End Trace.
