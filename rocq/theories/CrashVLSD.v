(** Runs of VLSD (C73). *)
From Verif Require Export CrashMiners.
From Verif Require Import MiningProofs VLSDProofs OrderFacts.
From Coq Require Import Lia.
Open Scope string_scope.
Open Scope list_scope.
Open Scope nat_scope.

Lemma sort_in : forall Seq V (c : vl_config V) k (l : list (vlist Seq V)) v, In v (vl_sort c k l) -> In v l.
Proof. intros Seq V c k l v. destruct k; cbn [vl_sort]; auto; apply sort_by_in. Qed.
Lemma run_bind_ok : forall L A B evs (a : A) (f : A -> run L B), run_bind (evs, Ok a) f = (evs ++ fst (f a), snd (f a)).
Proof. reflexivity. Qed.
Section VLSDRunProofs.
  Context {Seq V : Type}.
  Variable impl : vl_impl Seq.
  Notation tr := (tracks_unit (@vl_effect Seq V)).
  Notation effect := (@vl_effect Seq V).
  Lemma vl_handle_tracks : forall (c : vl_config V) tsel TP FP (v : vlist Seq V), tr (vl_handle_run c tsel TP FP v) (fun st => vl_handle c tsel TP FP st v).
  Proof.
    intros c tsel TP FP v st. unfold vl_handle_run, vl_handle, run_bind, run_lift.
    destruct (vc_measure c _ _ TP FP) as [q|e]; cbn [fst snd bind app]; auto. destruct (vc_reaches c q); cbn [fst snd]; [|reflexivity].
    destruct (vc_write c); cbn [fst snd app run_emit run_ret]; reflexivity.
  Qed.
  Lemma extend_tracks : forall (c : vl_config V) M tsel TP FP s_x lx W s_y st,
    extend impl c M tsel TP FP s_x lx (W, st) s_y =
    match extend_run impl c M tsel TP FP s_x lx W s_y with (evs, Ok W') => Ok (W', replay effect evs st) | (_, Err e) => Err e end.
  Proof.
    intros c M tsel TP FP s_x lx W s_y st. unfold extend, extend_run, run_bind, run_lift. destruct (last_elem (vl_sels s_y)) as [ly|]; cbn [fst snd bind app]; auto.
    destruct (query_matrix M lx ly) as [m|]; cbn [fst snd]; auto. destruct (vc_oe_reaches c (vl_quality m)); cbn [fst snd]; auto.
    destruct (vi_join impl _ s_x s_y true) as [[v|]|]; cbn [fst snd bind app]; auto. destruct (vc_oe_reaches c (vl_quality v)); cbn [fst snd]; auto.
    rewrite (vl_handle_tracks c tsel TP FP v st). destruct (vl_handle_run c tsel TP FP v) as [evs [[]|e]]; cbn [fst snd bind run_ret]; rewrite ?app_nil_r; auto.
  Qed.
  Lemma extends_tracks : forall (c : vl_config V) M tsel TP FP s_x lx ys W st,
    fold_res (extend impl c M tsel TP FP s_x lx) ys (W, st) =
    match fold_run (extend_run impl c M tsel TP FP s_x lx) ys W with (evs, Ok W') => Ok (W', replay effect evs st) | (_, Err e) => Err e end.
  Proof.
    intros c M tsel TP FP s_x lx. induction ys as [|y ys IH]; intros W st; cbn [fold_res fold_run]; [reflexivity|]. rewrite extend_tracks. unfold run_bind.
    destruct (extend_run impl c M tsel TP FP s_x lx W y) as [evs [W'|e]]; cbn [fst snd bind]; auto. rewrite IH.
    destruct (fold_run _ ys W') as [evs' [W2|e]]; cbn [fst snd]; auto. rewrite replay_app. reflexivity.
  Qed.
  Lemma search_tracks : forall (c : vl_config V) M tsel TP FP fuel P, tr (search_run impl c M tsel TP FP fuel P) (search impl c M tsel TP FP fuel P).
  Proof.
    intros c M tsel TP FP. induction fuel as [|f IH]; intros P; cbn [search_run search]; [apply (tracks_err effect)|].
    induction P as [|x rest IHP]; [apply (tracks_ret effect)|]. revert IHP.
    match goal with |- tr ?a ?b -> _ => generalize a, b end. intros loop_r loop_f IHP. destruct rest as [|y ys]; [apply (tracks_ret effect)|]. generalize (y :: ys). intros rest.
    apply (tracks_lift_bind effect). intros lx st. rewrite extends_tracks.
    destruct (fold_run (extend_run impl c M tsel TP FP x lx) rest []) as [evs [W|e]]; [|reflexivity]. cbn [bind].
    assert (T : tr match W with [] => run_ret tt | _ :: _ => search_run impl c M tsel TP FP f (vl_sort c (vc_sort_other c) W) end
                   (fun st => match W with [] => Ok st | _ :: _ => search impl c M tsel TP FP f (vl_sort c (vc_sort_other c) W) st end)) by (destruct W; [apply (tracks_ret effect)|apply IH]).
    pose proof (tracks_bind effect _ _ _ _ T IHP (replay effect evs st)) as K. cbn beta in K. etransitivity; [exact K|].
    rewrite run_bind_ok. cbn [fst snd]. rewrite replay_app. reflexivity.
  Qed.
  Lemma search_from_tracks : forall (c : vl_config V) M tsel TP FP x, tr (search_from_run impl c M tsel TP FP x) (fun st => search_from impl c M tsel TP FP st x).
  Proof.
    intros c M tsel TP FP x. unfold search_from_run, search_from. apply (tracks_lift_bind effect). intros s. destruct (sel_assoc s M) as [row|]; [|apply (tracks_ret effect)].
    cbn zeta. apply (tracks_bind effect); [|apply search_tracks]. apply (tracks_fold effect). intros v. apply vl_handle_tracks.
  Qed.
  Lemma vlsd_tracks : forall (c : vl_config V) df tcol tval, tr (vlsd_run impl c df tcol tval) (fun st => vlsd_fit impl c st df tcol tval).
  Proof.
    intros c df tcol tval. unfold vlsd_run, vlsd_fit. destruct (negb (all_nominal df)); [apply (tracks_err effect)|]. cbn zeta.
    apply (tracks_bind effect (if vc_write c then run_emit EOpen else run_ret tt) _ (fun st => Ok (if vc_write c then VS (vs_selected st) (vs_unselected st) (Some []) else st))
      (fun st => do mask <- target_mask df tcol (VStr tval); let '(TP, FP) := population df mask in do s1 <- generate_s1 impl c df mask tcol TP FP;
                 do st <- fold_res (vl_handle c (Sel tcol EQUAL (VStr tval)) TP FP) s1 st; do M <- build_matrix impl c TP FP s1 []; fold_res (search_from impl c M (Sel tcol EQUAL (VStr tval)) TP FP) (removelast s1) st)).
    - intros st. destruct (vc_write c); reflexivity.
    - apply (tracks_lift_bind effect). intros mask. destruct (population df mask) as [TP FP]. apply (tracks_lift_bind effect). intros s1.
      apply (tracks_bind effect); [apply (tracks_fold effect); intros v; apply vl_handle_tracks|]. apply (tracks_lift_bind effect). intros M.
      intros st. pose proof (tracks_fold effect (search_from_run impl c M (Sel tcol EQUAL (VStr tval)) TP FP) (search_from impl c M (Sel tcol EQUAL (VStr tval)) TP FP) (removelast s1)
        (fun x => search_from_tracks c M (Sel tcol EQUAL (VStr tval)) TP FP x) st) as H. rewrite H. unfold run_bind.
      destruct (fold_run _ (removelast s1) tt) as [evs [[]|e]]; cbn [fst snd]; auto. destruct (vc_write c); cbn [run_emit run_ret fst snd]; rewrite replay_app; reflexivity.
  Qed.

  (** The measure and the estimate replaced by ones that do not raise. *)
  Definition vl_totalised (v0 : V) (c : vl_config V) : vl_config V :=
    VC (totalised v0 (vc_measure c)) (vc_reaches c) (totalised v0 (vc_oe c)) (vc_oe_reaches c) (vc_lt c) (vc_sort_s1 c) (vc_sort_other c) (vc_write c).
  Definition monotone_impl : Prop := forall (qf qf' : nat -> nat -> res V) a b n, (forall x y, res_le (qf x y) (qf' x y)) -> res_le (vi_join impl qf a b n) (vi_join impl qf' a b n).
  Lemma vl_handle_le : forall v0 (c : vl_config V) tsel TP FP (v : vlist Seq V), run_le (vl_handle_run c tsel TP FP v) (vl_handle_run (vl_totalised v0 c) tsel TP FP v).
  Proof. intros v0 c tsel TP FP v. apply run_le_bind; [apply run_le_lift, totalised_le|]. intros q. apply run_le_refl. Qed.
  Lemma join_oe_le : forall v0 (c : vl_config V) TP FP x y, res_le (join_oe c TP FP x y) (join_oe (vl_totalised v0 c) TP FP x y).
  Proof. intros. unfold join_oe. apply totalised_le. Qed.
  Hypothesis mono : monotone_impl.
  Lemma search_le : forall v0 (c : vl_config V) M tsel TP FP fuel P, run_le (search_run impl c M tsel TP FP fuel P) (search_run impl (vl_totalised v0 c) M tsel TP FP fuel P).
  Proof.
    intros v0 c M tsel TP FP. induction fuel as [|f IH]; intros P; cbn [search_run]; [apply run_le_refl|]. induction P as [|x rest IHP]; [apply run_le_refl|]. revert IHP.
    match goal with |- run_le ?a ?b -> _ => generalize a, b end. intros loop_r loop_f IHP. destruct rest as [|y ys]; [apply run_le_refl|]. generalize (y :: ys). intros rest. apply run_le_bind; [apply run_le_refl|]. intros lx. apply run_le_bind.
    - apply run_le_fold. intros W s_y. apply run_le_bind; [apply run_le_refl|]. intros ly. destruct (query_matrix M lx ly) as [m|]; [|apply run_le_refl]. change (vc_oe_reaches (vl_totalised v0 c)) with (vc_oe_reaches c). destruct (vc_oe_reaches c (vl_quality m)); [|apply run_le_refl].
      apply run_le_bind; [apply run_le_lift, mono, join_oe_le|]. intros [v|]; [|apply run_le_refl]. destruct (vc_oe_reaches c (vl_quality v)); [|apply run_le_refl].
      apply run_le_bind; [apply vl_handle_le|]. intros _. apply run_le_refl.
    - intros W. apply run_le_bind; [|intros _; apply IHP]. destruct W; [apply run_le_refl|]. apply IH.
  Qed.
  Lemma generate_s1_le : forall v0 (c : vl_config V) df mask tcol TP FP, res_le (generate_s1 impl c df mask tcol TP FP) (generate_s1 impl (vl_totalised v0 c) df mask tcol TP FP).
  Proof.
    intros. apply res_le_bind; [|intros a; apply res_le_refl]. apply res_le_fold. intros acc nc. apply res_le_fold. intros acc' v. apply res_le_bind; [apply totalised_le|]. intros o. apply res_le_refl.
  Qed.
  Lemma build_matrix_le : forall v0 (c : vl_config V) TP FP s1 M, res_le (build_matrix impl c TP FP s1 M) (build_matrix impl (vl_totalised v0 c) TP FP s1 M).
  Proof.
    intros v0 c TP FP. induction s1 as [|x ys IH]; intros M; cbn [build_matrix]; [apply res_le_refl|]. apply res_le_bind; [|intros a; apply IH]. apply res_le_fold. intros M' y.
    apply res_le_bind; [apply res_le_refl|]. intros lx. apply res_le_bind; [apply res_le_refl|]. intros ly. apply res_le_bind; [apply mono, join_oe_le|]. intros xy. apply res_le_refl.
  Qed.
  Lemma vlsd_le : forall v0 (c : vl_config V) df tcol tval, run_le (vlsd_run impl c df tcol tval) (vlsd_run impl (vl_totalised v0 c) df tcol tval).
  Proof.
    intros v0 c df tcol tval. unfold vlsd_run. change (vc_write (vl_totalised v0 c)) with (vc_write c). destruct (negb (all_nominal df)); [apply run_le_refl|]. cbn zeta.
    apply run_le_bind; [apply run_le_refl|]. intros _. apply run_le_bind; [apply run_le_refl|]. intros mask. destruct (population df mask) as [TP FP].
    apply run_le_bind; [apply run_le_lift, generate_s1_le|]. intros s1. apply run_le_bind; [apply run_le_fold; intros _ v; apply vl_handle_le|]. intros _.
    apply run_le_bind; [apply run_le_lift, build_matrix_le|]. intros M. apply run_le_bind; [|intros _; apply run_le_refl]. apply run_le_fold. intros _ x.
    apply run_le_bind; [apply run_le_refl|]. intros s. destruct (sel_assoc s M) as [row|]; [|apply run_le_refl]. cbn zeta. change (vl_sort (vl_totalised v0 c)) with (@vl_sort Seq V c).
    apply run_le_bind; [apply run_le_fold; intros _ v; apply vl_handle_le|]. intros _. apply search_le.
  Qed.
End VLSDRunProofs.

(** * What is written *)
Section VLSDLines.
  Context {Seq V : Type}.
  Variable impl : vl_impl Seq.
  Variable c : vl_config V.
  Variables TP FP : Z.
  Definition estimated (v : vlist Seq V) : Prop := vc_oe c (Z.of_nat (vl_tp v)) (Z.of_nat (vl_fp v)) TP FP = Ok (vl_quality v).
  Definition vl_line_ok (e : event (vl_record Seq V)) : Prop :=
    inner e /\ match e with
    | ELine r => let l := vr_line r in vc_measure c (r_tp l) (r_fp l) (r_TP l) (r_FP l) = Ok (r_quality l) /\ vc_reaches c (r_quality l) = true /\
                 vc_oe c (r_tp l) (r_fp l) (r_TP l) (r_FP l) = Ok (vr_oe r)
    | _ => exists v : V, True
    end.
  Lemma vl_handle_effects : forall tsel v, estimated v -> all_effects vl_line_ok (vl_handle_run c tsel TP FP v).
  Proof.
    intros tsel v Hv. apply effects_bind; [apply effects_lift|]. intros q Eq. cbn in Eq. destruct (vc_reaches c q) eqn:R; [|apply effects_emit; split; [exact I|exists q; exact I]].
    apply effects_bind; [|intros _ _; apply effects_emit; split; [exact I|exists q; exact I]]. destruct (vc_write c); [|apply effects_ret]. apply effects_emit. split; [exact I|]. cbn. auto.
  Qed.
  Definition joins_estimate : Prop := forall a b n v, vi_join impl (join_oe c TP FP) a b n = Ok (Some v) -> estimated v.
  Definition inits_counts : Prop := forall sels tp fp n (q : V) v, vi_init impl sels tp fp n q = Ok v -> vl_tp v = length tp /\ vl_fp v = length fp /\ vl_quality v = q.
  Hypothesis HJ : joins_estimate.
  Hypothesis HI : inits_counts.
  Lemma search_effects : forall M tsel fuel P, all_effects vl_line_ok (search_run impl c M tsel TP FP fuel P).
  Proof.
    intros M tsel. induction fuel as [|f IH]; intros P; cbn [search_run]; [apply effects_lift|]. induction P as [|x rest IHP]; [apply effects_ret|]. revert IHP.
    match goal with |- all_effects _ ?a -> _ => generalize a end. intros loop_r IHP. destruct rest as [|y ys]; [apply effects_ret|]. generalize (y :: ys). intros rest. apply effects_bind; [apply effects_lift|]. intros lx _. apply effects_bind.
    - apply effects_fold. intros W s_y. apply effects_bind; [apply effects_lift|]. intros ly _. destruct (query_matrix M lx ly) as [m|]; [|apply effects_ret]. destruct (vc_oe_reaches c (vl_quality m)); [|apply effects_ret].
      apply effects_bind; [apply effects_lift|]. intros [v|] Ev; [|apply effects_ret]. destruct (vc_oe_reaches c (vl_quality v)); [|apply effects_ret].
      apply effects_bind; [apply vl_handle_effects; eapply HJ; exact Ev|]. intros _ _. apply effects_ret.
    - intros W _. apply effects_bind; [|intros _ _; apply IHP]. destruct W; [apply effects_ret|apply IH].
  Qed.
  Lemma handles_effects : forall tsel l, Forall estimated l -> all_effects vl_line_ok (fold_run (fun _ v => vl_handle_run c tsel TP FP v) l tt).
  Proof. intros tsel l F. induction F as [|v l Hv F IH]; cbn [fold_run]; [apply effects_ret|]. apply effects_bind; [apply vl_handle_effects; auto|]. intros [] _. exact IH. Qed.
  (** The lists of size 1 and of size 2 carry their estimates. *)
  Lemma fold_res_inv : forall {A S} (Pr : S -> Prop) (f : S -> A -> res S) l s s', (forall s x s', Pr s -> f s x = Ok s' -> Pr s') -> Pr s -> fold_res f l s = Ok s' -> Pr s'.
  Proof.
    intros A S Pr f l. induction l as [|x l IH]; intros s s' H Hs E; cbn [fold_res] in E; [congruence|]. destruct (f s x) as [s1|] eqn:E1; [|discriminate]. cbn [bind] in E. apply (IH s1 s'); auto. eapply H; eauto.
  Qed.
  Lemma s1_estimated : forall df mask tcol s1, generate_s1 impl c df mask tcol TP FP = Ok s1 -> Forall estimated s1.
  Proof.
    intros df mask tcol s1 E. unfold generate_s1 in E. destruct (fold_res _ (other_columns df tcol) []) as [l|] eqn:El; [|discriminate]. cbn [bind] in E.
    assert (F : Forall estimated l).
    { eapply (fold_res_inv (Forall estimated)); [|constructor|exact El]. intros acc nc acc' Ha Ea. eapply (fold_res_inv (Forall estimated)); [|exact Ha|exact Ea]. clear -HI. intros acc v acc' Ha Ea. unfold s1_value in Ea.
      destruct (vc_oe c _ _ TP FP) as [o|] eqn:Eo; [|discriminate]. cbn [bind] in Ea. destruct (vc_oe_reaches c o); [|injection Ea as <-; auto]. destruct (vi_init impl _ _ _ _ _) as [x|] eqn:Ex; [|discriminate]. cbn [bind] in Ea. injection Ea as <-.
      apply Forall_app. split; auto. constructor; [|constructor]. destruct (HI _ _ _ _ _ _ Ex) as (E1 & E2 & E3). unfold estimated. rewrite E1, E2, E3. exact Eo. }
    injection E as <-. apply Forall_forall. intros v I. rewrite Forall_forall in F. apply F. eapply sort_in; eauto.
  Qed.
  Definition matrix_estimated (M : list (selector * list (selector * vlist Seq V))) : Prop := Forall (fun r => Forall (fun x => estimated (snd x)) (snd r)) M.
  Lemma assoc_upd_all : forall {B} (Q : B -> Prop) k f (d : list (selector * B)), Forall (fun x => Q (snd x)) d -> (forall b, Q b -> Q (f b)) -> Forall (fun x => Q (snd x)) (sel_assoc_upd k f d).
  Proof. intros B Q k f d F Hf. induction F as [|[k' b] d Hb F IH]; cbn [sel_assoc_upd]; [constructor|]. destruct (sel_eq _ _); constructor; auto. apply Hf; auto. Qed.
  Lemma matrix_set_estimated : forall M a b v, matrix_estimated M -> estimated v -> matrix_estimated (matrix_set M a b v).
  Proof.
    intros M a b v HM Hv. unfold matrix_set. destruct (sel_assoc a M).
    - apply (assoc_upd_all (fun r => Forall (fun x => estimated (snd x)) r)); auto. intros r Hr. unfold dict_set. destruct (sel_assoc b r); [apply (assoc_upd_all estimated); auto|]. apply Forall_app. split; auto.
    - apply Forall_app. split; auto. repeat constructor; auto.
  Qed.
  Lemma matrix_ok_estimated : forall s1 M M', matrix_estimated M -> build_matrix impl c TP FP s1 M = Ok M' -> matrix_estimated M'.
  Proof.
    induction s1 as [|x ys IH]; intros M M' HM E; cbn [build_matrix] in E; [injection E as <-; auto|]. destruct (fold_res _ ys M) as [M1|] eqn:E1; [|discriminate]. cbn [bind] in E. apply (IH M1); auto.
    eapply (fold_res_inv matrix_estimated); [|exact HM|exact E1]. clear -HJ. intros M y M' HM E. unfold matrix_step in E. destruct (last_elem (vl_sels x)); [|discriminate]. cbn [bind] in E. destruct (last_elem (vl_sels y)); [|discriminate]. cbn [bind] in E.
    destruct (vi_join impl _ x y true) as [[v|]|] eqn:J; cbn [bind] in E; [| |discriminate]; injection E as <-; auto. destruct (vc_oe_reaches c (vl_quality v)); auto. apply matrix_set_estimated; auto. eapply HJ; eauto.
  Qed.
  Lemma sel_assoc_in : forall {B} k (d : list (selector * B)) b, sel_assoc k d = Some b -> exists k', In (k', b) d.
  Proof. intros B k d b. induction d as [|[k' b'] d IH]; cbn [sel_assoc]; [discriminate|]. destruct (sel_eq _ _); [intros E; injection E as <-; exists k'; left; auto|]. intros E. destruct (IH E) as (k2 & I). exists k2. right; auto. Qed.
  Lemma search_from_effects : forall M tsel x, matrix_estimated M -> all_effects vl_line_ok (search_from_run impl c M tsel TP FP x).
  Proof.
    intros M tsel x HM. apply effects_bind; [apply effects_lift|]. intros s _. destruct (sel_assoc s M) as [row|] eqn:Er; [|apply effects_ret]. cbn zeta. apply effects_bind; [|intros _ _; apply search_effects].
    apply handles_effects. apply sel_assoc_in in Er. destruct Er as (k & Ir). unfold matrix_estimated in HM. rewrite Forall_forall in HM. specialize (HM _ Ir). cbn [snd] in HM.
    apply Forall_forall. intros v I. apply sort_in, in_map_iff in I. destruct I as (e & <- & Ie). rewrite Forall_forall in HM. apply (HM e Ie).
  Qed.
End VLSDLines.
(** The effects between opening and closing. *)
Definition vlsd_body {Seq V} (impl : vl_impl Seq) (c : vl_config V) (df : dataframe) (tcol tval : string) : run (vl_record Seq V) unit :=
  let tsel := Sel tcol EQUAL (VStr tval) in
  go mask <- run_lift (target_mask df tcol (VStr tval));
  let '(TP, FP) := population df mask in
  go s1 <- run_lift (generate_s1 impl c df mask tcol TP FP);
  go _ <- fold_run (fun _ v => vl_handle_run c tsel TP FP v) s1 tt;
  go M <- run_lift (build_matrix impl c TP FP s1 []);
  fold_run (fun _ x => search_from_run impl c M tsel TP FP x) (removelast s1) tt.
Lemma vlsd_shape : forall Seq V (impl : vl_impl Seq) (c : vl_config V) df tcol tval, vc_write c = true -> all_nominal df = true ->
  let m := vlsd_body impl c df tcol tval in vlsd_run impl c df tcol tval = (EOpen :: fst m ++ match snd m with Ok _ => [EClose] | Err _ => [] end, snd m).
Proof.
  intros Seq V impl c df tcol tval Hw Hn. cbn zeta. unfold vlsd_run, vlsd_body. rewrite Hn, Hw. cbn [negb]. unfold run_bind at 1. cbn [run_emit fst snd app].
  unfold run_bind, run_lift. destruct (target_mask _ _ _) as [mask|]; cbn [fst snd app]; [|reflexivity]. destruct (population df mask) as [TP FP].
  destruct (generate_s1 _ _ _ _ _ _ _) as [s1|]; cbn [fst snd app]; [|reflexivity]. destruct (fold_run _ s1 tt) as [e1 [[]|x1]]; cbn [fst snd app]; [|rewrite app_nil_r; reflexivity].
  destruct (build_matrix _ _ _ _ _ _) as [M|]; cbn [fst snd app]; [|rewrite !app_nil_r; reflexivity]. destruct (fold_run _ (removelast s1) tt) as [e2 [[]|x2]]; cbn [fst snd app run_emit]; rewrite ?app_nil_r, ?app_assoc; reflexivity.
Qed.
Lemma vlsd_body_effects : forall Seq V (impl : vl_impl Seq) (c : vl_config V) df tcol tval, (forall TP FP, joins_estimate impl c TP FP) -> @inits_counts Seq V impl ->
  all_effects (vl_line_ok c) (vlsd_body impl c df tcol tval).
Proof.
  intros Seq V impl c df tcol tval HJ HI. apply effects_bind; [apply effects_lift|]. intros mask _. destruct (population df mask) as [TP FP]. apply effects_bind; [apply effects_lift|]. intros s1 E1.
  apply effects_bind; [apply handles_effects; eapply s1_estimated; [exact HI|exact E1]|]. intros _ _. apply effects_bind; [apply effects_lift|]. intros M EM. apply effects_fold. intros _ x.
  apply search_from_effects; auto. eapply matrix_ok_estimated; [apply HJ| |exact EM]. constructor.
Qed.
Lemma vl_handle_settled : forall Seq V (c : vl_config V) tsel TP FP (v : vlist Seq V), vc_write c = true -> run_settled (vl_handle_run c tsel TP FP v).
Proof.
  intros Seq V c tsel TP FP v Hw. apply settled_bind; [apply settled_lift|]. intros q. rewrite Hw. destruct (vc_reaches c q).
  - split; [reflexivity|]. intros pre [r E]. destruct pre as [|a [|b pre]]; cbn in *; [lia|injection E as <- _; cbn; lia|]. injection E as <- <- E. symmetry in E. apply app_eq_nil in E. destruct E as [-> _]. cbn. lia.
  - apply settled_mark; reflexivity.
Qed.
Lemma vlsd_settled : forall Seq V (impl : vl_impl Seq) (c : vl_config V) df tcol tval, vc_write c = true -> run_settled (vlsd_body impl c df tcol tval).
Proof.
  intros Seq V impl c df tcol tval Hw. apply settled_bind; [apply settled_lift|]. intros mask. destruct (population df mask) as [TP FP]. apply settled_bind; [apply settled_lift|]. intros s1.
  apply settled_bind; [apply settled_fold; intros _ v; apply vl_handle_settled; auto|]. intros _. apply settled_bind; [apply settled_lift|]. intros M. apply settled_fold. intros _ x. apply settled_bind; [apply settled_lift|]. intros s.
  destruct (sel_assoc s M) as [row|]; [|apply settled_ret]. cbn zeta. apply settled_bind; [apply settled_fold; intros _ v; apply vl_handle_settled; auto|]. intros _.
  generalize (S (length (vl_sort c (vc_sort_other c) (map snd row)))) as fuel. generalize (vl_sort c (vc_sort_other c) (map snd row)) as P. intros P fuel. revert P.
  induction fuel as [|f IH]; intros P; cbn [search_run]; [apply settled_lift|]. induction P as [|y rest IHP]; [apply settled_ret|]. revert IHP.
  match goal with |- run_settled ?a -> _ => generalize a end. intros loop_r IHP. destruct rest as [|z ys]; [apply settled_ret|]. generalize (z :: ys). intros rest.
  apply settled_bind; [apply settled_lift|]. intros lx. apply settled_bind.
  - apply settled_fold. intros W s_y. apply settled_bind; [apply settled_lift|]. intros ly. destruct (query_matrix M lx ly) as [m|]; [|apply settled_ret]. destruct (vc_oe_reaches c (vl_quality m)); [|apply settled_ret].
    apply settled_bind; [apply settled_lift|]. intros [v|]; [|apply settled_ret]. destruct (vc_oe_reaches c (vl_quality v)); [|apply settled_ret]. apply settled_bind; [apply vl_handle_settled; auto|]. intros _. apply settled_ret.
  - intros W. apply settled_bind; [|intros _; apply IHP]. destruct W; [apply settled_ret|apply IH].
Qed.
Lemma vl_replay : forall Seq V (evs : list (event (vl_record Seq V))) (st : vl_state Seq V), opened evs = false ->
  replay vl_effect evs st = VS (vs_selected st + selected_in evs) (vs_unselected st + unselected_in evs)
    (match vs_file st with Some l => Some (l ++ lines_of evs) | None => None end).
Proof.
  intros Seq V evs. induction evs as [|e evs IH]; intros [a b fl] O; unfold replay in *; cbn [fold_left].
  - cbn. rewrite !Nat.add_0_r. destruct fl; rewrite ?app_nil_r; reflexivity.
  - assert (O' : opened evs = false) by (destruct e; cbn in O; auto; discriminate). rewrite IH by auto.
    destruct e; cbn in O; try discriminate; unfold selected_in, unselected_in; cbn [vl_effect vs_selected vs_unselected vs_file filter length lines_of flat_map app]; f_equal; try lia; auto.
    destruct fl as [l0|]; auto. fold (lines_of evs). rewrite <- app_assoc. reflexivity.
Qed.
Lemma vl_counts : forall Seq V (evs : list (event (vl_record Seq V))) (st : vl_state Seq V),
  vs_selected (fold_left vl_effect evs st) = vs_selected st + selected_in evs /\ vs_unselected (fold_left vl_effect evs st) = vs_unselected st + unselected_in evs.
Proof.
  intros Seq V evs. induction evs as [|e evs IH]; intros st; cbn [fold_left]; [cbn; lia|]. destruct (IH (vl_effect st e)) as [E1 E2]. rewrite E1, E2.
  destruct e; unfold selected_in, unselected_in; cbn [vl_effect vs_selected vs_unselected filter length]; lia.
Qed.
(** The two representations. *)
Lemma sets_facts : forall V, @monotone_impl _ V with_sets /\ (forall (c : vl_config V) TP FP, joins_estimate with_sets c TP FP) /\ @inits_counts _ V with_sets.
Proof.
  intros V. split; [|split].
  - intros qf qf' a b n H. cbn [vi_join with_sets]. unfold vls_join. destruct (negb _); [apply res_le_refl|]. cbn zeta. destruct (negb n || _); [|apply res_le_refl].
    apply res_le_bind; [apply res_le_refl|]. intros l. apply res_le_bind; [apply H|]. intros q. apply res_le_refl.
  - intros c TP FP a b n v E. cbn [vi_join with_sets] in E. unfold vls_join in E. destruct (negb _); [discriminate|]. cbn zeta in E. destruct (negb n || _); [|discriminate].
    destruct (last_elem _); [|discriminate]. cbn [bind] in E. destruct (join_oe c TP FP _ _) as [q|] eqn:Eq; [|discriminate]. cbn [bind] in E. injection E as <-. exact Eq.
  - intros sels tp fp n q v E. cbn in E. injection E as <-. auto.
Qed.
Lemma bitsets_facts : forall V, @monotone_impl _ V with_bitsets /\ (forall (c : vl_config V) TP FP, joins_estimate with_bitsets c TP FP) /\ @inits_counts _ V with_bitsets.
Proof.
  intros V. split; [|split].
  - intros qf qf' a b n H. cbn [vi_join with_bitsets]. unfold vlb_join. destruct (negb _); [apply res_le_refl|]. cbn zeta. destruct (negb n || _); [|apply res_le_refl].
    apply res_le_bind; [apply res_le_refl|]. intros l. apply res_le_bind; [apply H|]. intros q. apply res_le_refl.
  - intros c TP FP a b n v E. cbn [vi_join with_bitsets] in E. unfold vlb_join in E. destruct (negb _); [discriminate|]. cbn zeta in E. destruct (negb n || _); [|discriminate].
    destruct (last_elem _); [|discriminate]. cbn [bind] in E. destruct (join_oe c TP FP _ _) as [q|] eqn:Eq; [|discriminate]. cbn [bind] in E. injection E as <-. exact Eq.
  - intros sels tp fp n q v E. cbn [vi_init with_bitsets] in E. unfold vlb_init in E. destruct (fold_res _ tp _); [|discriminate]. cbn [bind] in E. destruct (fold_res _ fp _); [|discriminate]. cbn [bind] in E. injection E as <-. auto.
Qed.
