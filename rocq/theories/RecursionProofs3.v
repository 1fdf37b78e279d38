(** A run that ends within a limit ends in the same way within every larger limit (C84). *)
From Verif Require Export RecursionModel.
From Coq Require Import Lia.
Open Scope string_scope.
Open Scope list_scope.
Open Scope nat_scope.

Definition goes_on {A} (x y : res A) : Prop := forall a, x = Ok a -> y = Ok a.
Lemma goes_on_refl : forall A (x : res A), goes_on x x.
Proof. intros A x a H. exact H. Qed.
Lemma goes_on_bind : forall A B (x y : res A) (f g : A -> res B), goes_on x y -> (forall a, goes_on (f a) (g a)) -> goes_on (bind x f) (bind y g).
Proof. intros A B x y f g H K b E. destruct x as [a|]; [|discriminate]. rewrite (H a eq_refl). cbn [bind] in *. apply K; auto. Qed.
Lemma goes_on_fold : forall A S (f g : S -> A -> res S) l s, (forall s x, goes_on (f s x) (g s x)) -> goes_on (fold_res f l s) (fold_res g l s).
Proof. intros A S f g l. induction l as [|x l IH]; intros s H; cbn [fold_res]; [apply goes_on_refl|]. apply goes_on_bind; [apply H|intros; apply IH; auto]. Qed.

Lemma combinations_more : forall A n m (l : list A), n <= m -> goes_on (combinations_within n l) (combinations_within m l).
Proof.
  intros A. induction n as [|n IH]; intros m l H; [intros a E; discriminate|]. destruct m as [|m]; [lia|]. cbn [combinations_within]. destruct l as [|x l]; [apply goes_on_refl|].
  apply goes_on_bind; [apply IH; lia|]. intros a. apply goes_on_refl.
Qed.
Lemma fpgrowth_more : forall V (c : sd_config V) tsel TP FP n m t alpha st, n <= m ->
  goes_on (fpgrowth_within c tsel TP FP n t alpha st) (fpgrowth_within c tsel TP FP m t alpha st).
Proof.
  intros V c tsel TP FP. induction n as [|n IH]; intros m t alpha st H; [intros a E; discriminate|]. destruct m as [|m]; [lia|]. cbn [fpgrowth_within].
  apply goes_on_bind; [apply goes_on_refl|]. intros [].
  - apply goes_on_bind; [apply combinations_more; lia|]. intros a. apply goes_on_refl.
  - apply goes_on_fold. intros s ai. destruct (sel_assoc ai (t_header t)); [|apply goes_on_refl].
    apply goes_on_bind; [apply goes_on_refl|]. intros s1. apply goes_on_bind; [apply goes_on_refl|]. intros ct. destruct (is_empty ct); [apply goes_on_refl|]. apply IH. lia.
Qed.
Lemma star_fpgrowth_more : forall V (c : star_config V) tsel TP FP n m t alpha st, n <= m ->
  goes_on (star_fpgrowth_within c tsel TP FP n t alpha st) (star_fpgrowth_within c tsel TP FP m t alpha st).
Proof.
  intros V c tsel TP FP. induction n as [|n IH]; intros m t alpha st H; [intros a E; discriminate|]. destruct m as [|m]; [lia|]. cbn [star_fpgrowth_within].
  apply goes_on_bind; [apply goes_on_refl|]. intros [].
  - apply goes_on_bind; [apply combinations_more; lia|]. intros a. apply goes_on_refl.
  - apply goes_on_bind; [apply goes_on_refl|]. intros order. apply goes_on_fold. intros s ai. destruct (sel_assoc ai (t_header t)); [|apply goes_on_refl].
    apply goes_on_bind; [apply goes_on_refl|]. intros [[] s1]; [|apply goes_on_refl]. apply goes_on_bind; [apply goes_on_refl|]. intros [ct s2].
    destruct (is_empty ct); [apply goes_on_refl|]. apply IH. lia.
Qed.
Lemma search_more : forall Seq V impl (c : vl_config V) M tsel TP FP n m (P : list (vlist Seq V)) st, n <= m ->
  goes_on (search impl c M tsel TP FP n P st) (search impl c M tsel TP FP m P st).
Proof.
  intros Seq V impl c M tsel TP FP. induction n as [|n IH]; intros m P st H; [intros a E; discriminate|]. destruct m as [|m]; [lia|].
  revert st. induction P as [|x P IHP]; intros st; [apply goes_on_refl|]. destruct P as [|y P]; [apply goes_on_refl|]. cbn [search].
  apply goes_on_bind; [apply goes_on_refl|]. intros lx. apply goes_on_bind; [apply goes_on_refl|]. intros [W st1].
  apply goes_on_bind; [|intros st2; refine (IHP st2)]. destruct W; [apply goes_on_refl|]. apply IH. lia.
Qed.
Lemma bsd_more : forall V (c : bsd_config V) dpos dneg n m C R cpos cneg depth st, n <= m ->
  goes_on (bsd_search c dpos dneg n C R cpos cneg depth st) (bsd_search c dpos dneg m C R cpos cneg depth st).
Proof.
  intros V c dpos dneg. induction n as [|n IH]; intros m C R cpos cneg depth st H; [intros a E; discriminate|]. destruct m as [|m]; [lia|]. cbn [bsd_search].
  apply goes_on_bind; [apply goes_on_refl|]. intros r. cbv zeta. destruct (depth <? bc_max_depth c)%Z; [|apply goes_on_refl].
  generalize (sort_by (fun x y => BSDModel.pair_lt c y x) (fst r)) as L. intros L. generalize (map snd L) as aux, (snd r) as st1.
  induction L as [|x L IHL]; intros aux st1; [apply goes_on_refl|].
  apply goes_on_bind; [apply goes_on_refl|]. intros w. destruct (bc_lt c (e_quality w) (fst x)); [|apply IHL].
  apply goes_on_bind; [apply goes_on_refl|]. intros aux'.
  apply goes_on_bind; [apply goes_on_refl|]. intros bp. apply goes_on_bind; [apply goes_on_refl|]. intros pos.
  apply goes_on_bind; [apply goes_on_refl|]. intros bn. apply goes_on_bind; [apply goes_on_refl|]. intros neg.
  apply goes_on_bind; [apply IH; lia|]. intros st2. apply IHL.
Qed.
Lemma grow_more : forall c v complexity n m sels p app st, n <= m -> goes_on (grow_within n c v complexity sels p app st) (grow_within m c v complexity sels p app st).
Proof.
  intros c v complexity. induction n as [|n IH]; intros m sels p app st H; [intros a E; discriminate|]. destruct m as [|m]; [lia|]. cbn [grow_within].
  apply goes_on_bind; [apply goes_on_refl|]. intros r. destruct (snd r); [|apply goes_on_refl]. generalize (fst r) as st1.
  induction sels as [|s rest IHs]; intros st1; [apply goes_on_refl|].
  apply goes_on_bind; [apply goes_on_refl|]. intros a. apply goes_on_bind; [apply IH; lia|]. intros st2. apply IHs.
Qed.
Lemma fits_more : forall n m, n <= m ->
  (forall V (c : sd_config V) st df tcol tval, goes_on (sdmap_fit_within n c st df tcol tval) (sdmap_fit_within m c st df tcol tval)) /\
  (forall V (c : star_config V) st df tcol tval, goes_on (star_fit_within n c st df tcol tval) (star_fit_within m c st df tcol tval)) /\
  (forall Seq V impl (c : vl_config V) (st : vl_state Seq V) df tcol tval, goes_on (vlsd_fit_within n impl c st df tcol tval) (vlsd_fit_within m impl c st df tcol tval)) /\
  (forall V (c : bsd_config V) st df tcol tval, goes_on (bsd_fit_within n c st df tcol tval) (bsd_fit_within m c st df tcol tval)) /\
  (forall c st df tcol tval, goes_on (idsd_fit_within n c st df tcol tval) (idsd_fit_within m c st df tcol tval)).
Proof.
  intros n m H. repeat split; intros.
  - unfold sdmap_fit_within. destruct (negb _); [apply goes_on_refl|]. apply goes_on_bind; [apply goes_on_refl|]. intros d. apply goes_on_bind; [apply goes_on_refl|]. intros t.
    destruct (is_empty t); [apply goes_on_refl|]. apply goes_on_bind; [apply goes_on_refl|]. intros mask. destruct (population df mask). apply fpgrowth_more; auto.
  - unfold star_fit_within. cbv zeta. destruct (negb _); [apply goes_on_refl|]. apply goes_on_bind; [apply goes_on_refl|]. intros mask. destruct (population df mask).
    apply goes_on_bind; [apply goes_on_refl|]. intros d. apply goes_on_bind; [apply goes_on_refl|]. intros t. destruct (is_empty t); [apply goes_on_refl|]. apply star_fpgrowth_more; auto.
  - unfold vlsd_fit_within. cbv zeta. destruct (negb _); [apply goes_on_refl|]. apply goes_on_bind; [apply goes_on_refl|]. intros mask. destruct (population df mask).
    apply goes_on_bind; [apply goes_on_refl|]. intros s1. apply goes_on_bind; [apply goes_on_refl|]. intros st1. apply goes_on_bind; [apply goes_on_refl|]. intros M.
    apply goes_on_fold. intros s x. apply goes_on_bind; [apply goes_on_refl|]. intros l. destruct (sel_assoc l M); [|apply goes_on_refl].
    apply goes_on_bind; [apply goes_on_refl|]. intros st2. apply search_more; auto.
  - unfold bsd_fit_within. cbv zeta. destruct (negb _); [apply goes_on_refl|]. apply goes_on_bind; [apply goes_on_refl|]. intros mask. destruct (population df mask).
    apply goes_on_bind; [apply bsd_more; auto|]. intros st1. apply goes_on_refl.
  - unfold idsd_fit_within. cbv zeta. destruct (negb _); [apply goes_on_refl|]. destruct (col_get _ _); [|apply goes_on_refl]. destruct (negb _); [apply goes_on_refl|].
    apply goes_on_bind; [apply goes_on_refl|]. intros mask. apply goes_on_fold. intros. apply grow_more; auto.
Qed.
