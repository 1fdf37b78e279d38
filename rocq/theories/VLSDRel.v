(** VLSD with sets and VLSD with bitsets run in lock step. *)
From Verif Require Export VLSDModel.
From Verif Require Import VerticalSpec VerticalProofs OrderFacts.
Open Scope list_scope.
Open Scope nat_scope.

Definition rel_res {A B} (R : A -> B -> Prop) (x : res A) (y : res B) : Prop :=
  match x, y with Ok a, Ok b => R a b | Err e, Err e' => e = e' | _, _ => False end.
Lemma rel_bind : forall {A B A' B'} (R : A -> B -> Prop) (R' : A' -> B' -> Prop) x y f g,
  rel_res R x y -> (forall a b, R a b -> rel_res R' (f a) (g b)) -> rel_res R' (bind x f) (bind y g).
Proof. intros A B A' B' R R' [a|e] [b|e'] f g H HF; cbn in *; auto; try contradiction. Qed.
Lemma rel_eq : forall {A} (x : res A), rel_res eq x x.
Proof. intros A [a|e]; reflexivity. Qed.
Lemma rel_fold : forall {A B S T} (RA : A -> B -> Prop) (RS : S -> T -> Prop) f g l m,
  (forall s t a b, RS s t -> RA a b -> rel_res RS (f s a) (g t b)) -> Forall2 RA l m ->
  forall s t, RS s t -> rel_res RS (fold_res f l s) (fold_res g m t).
Proof.
  intros A B S T RA RS f g l m H F. induction F as [|a b l m Hab F IH]; intros s t Hst; cbn [fold_res]; [exact Hst|].
  eapply rel_bind; [apply H; eauto|]. intros s' t' H'. apply IH; auto.
Qed.
Lemma rel_insert : forall {A B} (R : A -> B -> Prop) f g x y l m,
  (forall a b a' b', R a b -> R a' b' -> f a a' = g b b') -> R x y -> Forall2 R l m -> Forall2 R (insert_by f x l) (insert_by g y m).
Proof.
  intros A B R f g x y l m H Hxy F. induction F as [|a b l m Hab F IH]; cbn [insert_by]; [constructor; auto|].
  rewrite (H a b x y) by auto. destruct (g b y); constructor; auto.
Qed.
Lemma rel_sort : forall {A B} (R : A -> B -> Prop) f g l m,
  (forall a b a' b', R a b -> R a' b' -> f a a' = g b b') -> Forall2 R l m -> Forall2 R (sort_by f l) (sort_by g m).
Proof. intros A B R f g l m H F. induction F; cbn [sort_by]; [constructor|]. apply rel_insert; auto. Qed.
Lemma rel_removelast : forall {A B} (R : A -> B -> Prop) l m, Forall2 R l m -> Forall2 R (removelast l) (removelast m).
Proof.
  intros A B R l m F. induction F as [|a b l m H F IH]; [constructor|]. cbn [removelast]. destruct F; [constructor|]. constructor; auto.
Qed.
Lemma F2_app : forall {A B} (R : A -> B -> Prop) a b c d, Forall2 R a b -> Forall2 R c d -> Forall2 R (a ++ c) (b ++ d).
Proof. intros. apply Forall2_app; auto. Qed.
Lemma F2_length : forall {A B} (R : A -> B -> Prop) l m, Forall2 R l m -> length l = length m.
Proof. intros A B R l m F. induction F; cbn; congruence. Qed.

Section Assoc.
  Context {A B : Type}.
  Variable R : A -> B -> Prop.
  Definition entry_rel (p : selector * A) (q : selector * B) : Prop := fst p = fst q /\ R (snd p) (snd q).
  Definition opt_rel (x : option A) (y : option B) : Prop :=
    match x, y with Some a, Some b => R a b | None, None => True | _, _ => False end.
  Lemma rel_assoc : forall k l m, Forall2 entry_rel l m -> opt_rel (sel_assoc k l) (sel_assoc k m).
  Proof.
    intros k l m F. induction F as [|[a x] [b y] l m [E H] F IH]; cbn [sel_assoc]; [exact I|]. cbn in E, H. subst.
    destruct (sel_eq b k); [exact H|exact IH].
  Qed.
  Lemma rel_upd : forall k f g l m, (forall a b, R a b -> R (f a) (g b)) -> Forall2 entry_rel l m ->
    Forall2 entry_rel (sel_assoc_upd k f l) (sel_assoc_upd k g m).
  Proof.
    intros k f g l m H F. induction F as [|[a x] [b y] l m [E HR] F IH]; cbn [sel_assoc_upd]; [constructor|]. cbn in E, HR. subst.
    destruct (sel_eq b k); constructor; auto; split; cbn; auto.
  Qed.
  Lemma rel_dict_set : forall k a b l m, R a b -> Forall2 entry_rel l m -> Forall2 entry_rel (dict_set k a l) (dict_set k b m).
  Proof.
    intros k a b l m H F. unfold dict_set. pose proof (rel_assoc k l m F) as Q.
    destruct (sel_assoc k l), (sel_assoc k m); try contradiction.
    - apply rel_upd; auto.
    - apply F2_app; auto. constructor; [split; auto|constructor].
  Qed.
  Lemma rel_snd : forall l m, Forall2 entry_rel l m -> Forall2 R (map snd l) (map snd m).
  Proof. intros l m F. induction F as [|p q l m [_ H] F IH]; cbn; constructor; auto. Qed.
End Assoc.

(** A set of rows and a bitarray with the same members. *)
Definition same_rows (s : list nat) (b : list bool) : Prop := NoDup s /\ forall i, In i s <-> nth i b false = true.
Definition same_line {V} (a : vl_record (list nat) V) (b : vl_record (list bool) V) : Prop :=
  vr_line a = vr_line b /\ vr_oe a = vr_oe b /\ same_rows (vr_seq_tp a) (vr_seq_tp b) /\ same_rows (vr_seq_fp a) (vr_seq_fp b).
Definition same_file {V} (a : option (list (vl_record (list nat) V))) (b : option (list (vl_record (list bool) V))) : Prop :=
  match a, b with Some l, Some m => Forall2 same_line l m | None, None => True | _, _ => False end.
(** Equal counters and the same output, line by line. *)
Definition same_state {V} (a : vl_state (list nat) V) (b : vl_state (list bool) V) : Prop :=
  vs_selected a = vs_selected b /\ vs_unselected a = vs_unselected b /\ same_file (vs_file a) (vs_file b).

Section Sim.
  Context {V : Type}.
  Variable c : vl_config V.

  Lemma vrel_fields : forall (a : vlist (list nat) V) b, vrel a b ->
    vl_sels a = vl_sels b /\ vl_tp a = vl_tp b /\ vl_fp a = vl_fp b /\ vl_quality a = vl_quality b.
  Proof. intros a b H. unfold vrel in H. tauto. Qed.
  Lemma rel_handle : forall tsel TP FP st st' v w, same_state st st' -> vrel v w ->
    rel_res same_state (vl_handle c tsel TP FP st v) (vl_handle c tsel TP FP st' w).
  Proof.
    intros tsel TP FP [s u f] [s' u' f'] v w (E1 & E2 & E3) Hv. cbn in E1, E2, E3. subst.
    destruct Hv as (S1 & T1 & F1 & N1 & Q1 & D1 & D2 & M1 & M2). unfold vl_handle. rewrite S1, T1, F1, Q1.
    eapply rel_bind; [apply rel_eq|]. intros q ? <-. destruct (vc_reaches c q); cbn; split; auto; split; auto.
    cbn. destruct (vc_write c); auto. destruct f, f'; cbn in *; try contradiction; auto.
    apply F2_app; auto. constructor; [|constructor]. repeat split; cbn; auto; apply M1 || apply M2; auto.
  Qed.
  Lemma rel_vl_sort : forall k l m, Forall2 vrel l m -> Forall2 vrel (vl_sort c k l) (vl_sort c k m).
  Proof.
    intros k l m F. unfold vl_sort. destruct k; auto; apply rel_sort; auto; intros a b a' b' H1 H2;
      apply vrel_fields in H1, H2; destruct H1 as (_ & _ & _ & ->), H2 as (_ & _ & _ & ->); reflexivity.
  Qed.
  Lemma rel_init : forall sels tp fp n (q : V), (forall i, In i tp \/ In i fp -> i < n) ->
    rel_res vrel (vls_init sels tp fp n q) (vlb_init sels tp fp n q).
  Proof.
    intros sels tp fp n q H. pose proof (eval_rel (fun _ _ => Err ValueError) (VBase sels tp fp n q) H) as R. cbn [eval_sets eval_bits] in R.
    destruct (vls_init sels tp fp n q) as [a|e], (vlb_init sels tp fp n q) as [b|e']; cbn [bind] in R; inversion R; subst; cbn; auto.
    match goal with H : orel _ _ |- _ => inversion H; auto end.
  Qed.
  Lemma registers_lt : forall mask col v b i, In i (registers mask col v b) -> i < length mask /\ i < length col.
  Proof.
    intros mask col v b i I. apply filter_In in I. destruct I as [_ I]. destruct (nth_error mask i) eqn:E1; [|discriminate].
    destruct (nth_error col i) eqn:E2; [|discriminate]. split; apply nth_error_Some; congruence.
  Qed.
  Lemma rel_s1_value : forall mask TP FP name col v acc acc', length mask <= Z.to_nat (TP + FP) -> Forall2 vrel acc acc' ->
    rel_res (Forall2 vrel) (s1_value with_sets c mask TP FP name col acc v) (s1_value with_bitsets c mask TP FP name col acc' v).
  Proof.
    intros mask TP FP name col v acc acc' HL F. unfold s1_value. eapply rel_bind; [apply rel_eq|]. intros o ? <-.
    destruct (vc_oe_reaches c o); [|exact F]. eapply rel_bind.
    - apply rel_init. intros i [I|I]; apply registers_lt in I; lia.
    - intros a b H. cbn. apply F2_app; auto.
  Qed.
  Lemma rel_s1 : forall df mask tcol TP FP, length mask <= Z.to_nat (TP + FP) ->
    rel_res (Forall2 vrel) (generate_s1 with_sets c df mask tcol TP FP) (generate_s1 with_bitsets c df mask tcol TP FP).
  Proof.
    intros df mask tcol TP FP HL. unfold generate_s1. eapply rel_bind.
    - eapply (rel_fold eq (Forall2 vrel)).
      + intros s t a ? H <-. eapply (rel_fold eq (Forall2 vrel)); auto.
        * intros; subst. apply rel_s1_value; auto.
        * induction (group_values (snd a)); constructor; auto.
      + induction (other_columns df tcol); constructor; auto.
      + constructor.
    - intros a b H. cbn. apply rel_vl_sort; auto.
  Qed.

  Notation mrel := (Forall2 (entry_rel (Forall2 (entry_rel (@vrel V))))).
  Lemma rel_matrix_at : forall M N a b, mrel M N -> opt_rel vrel (matrix_at M a b) (matrix_at N a b).
  Proof.
    intros M N a b H. unfold matrix_at. pose proof (rel_assoc _ a M N H) as Q.
    destruct (sel_assoc a M), (sel_assoc a N); try contradiction; [|exact I]. apply rel_assoc. exact Q.
  Qed.
  Lemma rel_query : forall M N a b, mrel M N -> opt_rel vrel (query_matrix M a b) (query_matrix N a b).
  Proof.
    intros M N a b H. unfold query_matrix. pose proof (rel_matrix_at M N a b H) as Q.
    destruct (matrix_at M a b), (matrix_at N a b); try contradiction; auto. apply rel_matrix_at; auto.
  Qed.
  Lemma rel_matrix_set : forall M N a b v w, mrel M N -> vrel v w -> mrel (matrix_set M a b v) (matrix_set N a b w).
  Proof.
    intros M N a b v w H Hv. unfold matrix_set. pose proof (rel_assoc _ a M N H) as Q.
    destruct (sel_assoc a M), (sel_assoc a N); try contradiction.
    - apply rel_upd; auto. intros r1 r2 F. apply rel_dict_set; auto.
    - apply F2_app; auto. constructor; [|constructor]. split; cbn; auto. constructor; [split; auto|constructor].
  Qed.
  Lemma rel_join : forall qf a b a' b' flag, @vrel V a b -> vrel a' b' ->
    rel_res (opt_rel vrel) (vls_join qf a a' flag) (vlb_join qf b b' flag).
  Proof.
    intros qf a b a' b' flag H H'. destruct (join_rel qf a b a' b' flag H H') as [e|x y Hx]; [reflexivity|].
    destruct Hx; cbn; auto.
  Qed.
  Lemma rel_matrix_step : forall TP FP x x' M N y y', vrel x x' -> mrel M N -> vrel y y' ->
    rel_res mrel (matrix_step with_sets c TP FP x M y) (matrix_step with_bitsets c TP FP x' N y').
  Proof.
    intros TP FP x x' M N y y' Hx HM Hy. unfold matrix_step. rewrite (proj1 (vrel_fields _ _ Hx)), (proj1 (vrel_fields _ _ Hy)).
    eapply rel_bind; [apply rel_eq|]. intros lx ? <-. eapply rel_bind; [apply rel_eq|]. intros ly ? <-.
    eapply rel_bind; [apply rel_join; eauto|]. intros [a|] [b|] H; cbn in H; try contradiction; cbn; auto.
    destruct (vrel_fields _ _ H) as (_ & _ & _ & ->). destruct (vc_oe_reaches c (vl_quality b)); auto. apply rel_matrix_set; auto.
  Qed.
  Lemma rel_build_matrix : forall TP FP l m, Forall2 vrel l m -> forall M N, mrel M N ->
    rel_res mrel (build_matrix with_sets c TP FP l M) (build_matrix with_bitsets c TP FP m N).
  Proof.
    intros TP FP l m F. induction F as [|x y l m H F IH]; intros M N HM; cbn [build_matrix]; [exact HM|].
    eapply rel_bind; [|intros; apply IH; eauto]. eapply rel_fold; eauto. intros; apply rel_matrix_step; auto.
  Qed.
  Definition acc_rel (p : list (vlist (list nat) V) * vl_state (list nat) V) (q : list (vlist (list bool) V) * vl_state (list bool) V) : Prop :=
    Forall2 vrel (fst p) (fst q) /\ same_state (snd p) (snd q).
  Lemma rel_extend : forall M N tsel TP FP x x' lx p q y y', mrel M N -> vrel x x' -> acc_rel p q -> vrel y y' ->
    rel_res acc_rel (extend with_sets c M tsel TP FP x lx p y) (extend with_bitsets c N tsel TP FP x' lx q y').
  Proof.
    intros M N tsel TP FP x x' lx [W st] [W' st'] y y' HM Hx [HW Hs] Hy. cbn in HW, Hs. unfold extend. rewrite (proj1 (vrel_fields _ _ Hy)).
    eapply rel_bind; [apply rel_eq|]. intros ly ? <-. pose proof (rel_query M N lx ly HM) as Q.
    destruct (query_matrix M lx ly) as [m|], (query_matrix N lx ly) as [m'|]; cbn in Q; try contradiction; [|split; auto].
    destruct (vrel_fields _ _ Q) as (_ & _ & _ & ->). destruct (vc_oe_reaches c (vl_quality m')); [|split; auto].
    eapply rel_bind; [apply rel_join; eauto|]. intros [a|] [b|] H; cbn in H; try contradiction; [|split; auto].
    destruct (vrel_fields _ _ H) as (_ & _ & _ & ->). destruct (vc_oe_reaches c (vl_quality b)); [|split; auto].
    eapply rel_bind; [apply rel_handle; eauto|]. intros s t Hst. split; cbn; auto. apply F2_app; auto.
  Qed.
  Lemma rel_search : forall M N tsel TP FP, mrel M N -> forall fuel P Q, Forall2 vrel P Q -> forall st st', same_state st st' ->
    rel_res same_state (search with_sets c M tsel TP FP fuel P st) (search with_bitsets c N tsel TP FP fuel Q st').
  Proof.
    intros M N tsel TP FP HM. induction fuel as [|f IH]; intros P Q F; [reflexivity|].
    induction F as [|x y P Q H F IHP]; intros st st' Hs; [exact Hs|].
    destruct F as [|x2 y2 P Q H2 F]; [exact Hs|]. cbn [search].
    rewrite (proj1 (vrel_fields _ _ H)). eapply rel_bind; [apply rel_eq|]. intros lx ? <-.
    eapply rel_bind.
    - eapply (rel_fold vrel acc_rel) with (l := x2 :: P) (m := y2 :: Q).
      + intros; apply rel_extend; auto.
      + constructor; auto.
      + split; [constructor|exact Hs].
    - intros [W s] [W' s'] [HW Hs']. cbn in HW, Hs'. eapply rel_bind.
      + destruct HW as [|w w' W W' Hw HW]; [exact Hs'|]. apply IH; auto. apply rel_vl_sort. constructor; auto.
      + intros a b Hab. specialize (IHP a b Hab). cbn [search] in IHP. exact IHP.
  Qed.
  Lemma rel_search_from : forall M N tsel TP FP st st' x y, mrel M N -> same_state st st' -> vrel x y ->
    rel_res same_state (search_from with_sets c M tsel TP FP st x) (search_from with_bitsets c N tsel TP FP st' y).
  Proof.
    intros M N tsel TP FP st st' x y HM Hs H. unfold search_from. rewrite (proj1 (vrel_fields _ _ H)).
    eapply rel_bind; [apply rel_eq|]. intros s ? <-. pose proof (rel_assoc _ s M N HM) as Q.
    destruct (sel_assoc s M) as [r|], (sel_assoc s N) as [r'|]; cbn in Q; try contradiction; [|exact Hs].
    pose proof (rel_vl_sort (vc_sort_other c) _ _ (rel_snd _ _ _ Q)) as F. cbn zeta. rewrite (F2_length _ _ _ F).
    eapply rel_bind; [eapply rel_fold; [|exact F|exact Hs]; intros; apply rel_handle; auto|].
    intros a b Hab. apply rel_search; auto.
  Qed.
  (** The two runs agree on every dataset and from every pair of equal states, errors included. *)
  Theorem rel_fit : forall st st' df tcol tval, wf_df df -> same_state st st' ->
    rel_res same_state (vlsd_fit with_sets c st df tcol tval) (vlsd_fit with_bitsets c st' df tcol tval).
  Proof.
    intros st st' df tcol tval Hw Hs. unfold vlsd_fit. destruct (negb (all_nominal df)); [reflexivity|].
    unfold target_mask, df_col. destruct (col_get (df_cols df) tcol) as [col|] eqn:Ec; [|reflexivity]. cbn [bind].
    set (mask := map _ col). destruct (population df mask) as [TP FP] eqn:EP.
    assert (HL : length mask <= Z.to_nat (TP + FP)).
    { unfold population in EP. injection EP as <- <-.
      assert (length mask = df_n df). { unfold mask. rewrite map_length. clear -Hw Ec. unfold wf_df in Hw.
        assert (In (tcol, col) (df_cols df)).
        { revert Ec. generalize (df_cols df). induction l as [|[a x] l IH]; cbn; [discriminate|]. destruct (String.eqb tcol a) eqn:E.
          - intros X; injection X as ->. apply String.eqb_eq in E. subst. left; auto.
          - intros X. right; auto. }
        eapply Hw; eauto. }
      lia. }
    eapply rel_bind; [apply rel_s1; exact HL|]. intros s1 s1' F.
    assert (Hs0 : same_state (if vc_write c then VS (vs_selected st) (vs_unselected st) (Some []) else st)
                             (if vc_write c then VS (vs_selected st') (vs_unselected st') (Some []) else st')).
    { destruct (vc_write c); auto. destruct Hs as (A & B & C). repeat split; cbn; auto. }
    eapply rel_bind; [eapply rel_fold; [|exact F|exact Hs0]; intros; apply rel_handle; auto|]. intros a b Hab.
    eapply rel_bind; [apply rel_build_matrix; [exact F|constructor]|]. intros M N HM.
    eapply rel_fold; [|apply rel_removelast; exact F|exact Hab]. intros; apply rel_search_from; auto.
  Qed.
End Sim.
