(** Proofs about subgroup lists (C23, C24). *)
From Verif Require Import SubgroupListSpec VerticalProofs.
Open Scope list_scope.
Open Scope nat_scope.

(** Closed form of the positional bitarrays and of the default rule. *)
Fixpoint positional (t : list bool) (os : list (list bool)) : list (list bool) :=
  match os with
  | [] => []
  | o :: os' => bits_and o t :: positional (bits_and t (bits_not (bits_and o t))) os'
  end.
Fixpoint remaining (t : list bool) (os : list (list bool)) : list bool :=
  match os with
  | [] => t
  | o :: os' => remaining (bits_and t (bits_not (bits_and o t))) os'
  end.
Lemma bits_not_length : forall a, length (bits_not a) = length a.
Proof. intros. apply map_length. Qed.
Lemma step_length : forall t o n, length t = n -> length o = n -> length (bits_and t (bits_not (bits_and o t))) = n.
Proof. intros. rewrite bits_and_length; [assumption|]. rewrite bits_not_length, bits_and_length; congruence. Qed.
Lemma remaining_length : forall os t n, length t = n -> Forall (fun o => length o = n) os -> length (remaining t os) = n.
Proof.
  induction os as [|o os IH]; intros t n Ht Ho; [assumption|]. inversion Ho; subst. simpl. apply IH; [|assumption].
  now apply step_length.
Qed.
Lemma positional_app : forall os t o, positional t (os ++ [o]) = positional t os ++ [bits_and o (remaining t os)].
Proof. induction os as [|x os IH]; intros t o; simpl; [reflexivity|]. now rewrite IH. Qed.
Lemma remaining_app : forall os t o, remaining t (os ++ [o]) =
  bits_and (remaining t os) (bits_not (bits_and o (remaining t os))).
Proof. induction os as [|x os IH]; intros t o; simpl; [reflexivity|]. now rewrite IH. Qed.
Lemma positional_len : forall os t, length (positional t os) = length os.
Proof. induction os as [|x os IH]; intros t; simpl; [reflexivity|]. now rewrite IH. Qed.
Lemma bit_step : forall t o i, length t = length o ->
  bit (bits_and t (bits_not (bits_and o t))) i = bit t i && negb (bit o i).
Proof.
  intros t o i H. unfold bit. rewrite nth_bits_and.
  destruct (Nat.lt_ge_cases i (length t)) as [L|L].
  - rewrite nth_bits_not by (rewrite bits_and_length; congruence). rewrite nth_bits_and.
    now destruct (nth i t false), (nth i o false).
  - now rewrite (nth_overflow t) by assumption.
Qed.
Lemma bits_ext : forall a b, length a = length b -> (forall i, bit a i = bit b i) -> a = b.
Proof. intros a b L H. apply (nth_ext a b false false L). intros i _. apply H. Qed.
Lemma undo : forall t o n, length t = n -> length o = n ->
  bits_or (bits_and t (bits_not (bits_and o t))) (bits_and o t) = t.
Proof.
  intros t o n Ht Ho. assert (L : length (bits_and t (bits_not (bits_and o t))) = n) by now apply step_length.
  assert (L' : length (bits_and o t) = n) by (rewrite bits_and_length; congruence).
  apply bits_ext; [rewrite bits_or_length; congruence|]. intros i. unfold bit at 1. rewrite nth_bits_or by congruence.
  fold (bit (bits_and t (bits_not (bits_and o t))) i). rewrite bit_step by congruence. rewrite nth_bits_and.
  unfold bit. now destruct (nth i t false), (nth i o false).
Qed.
Lemma bit_remaining : forall os t i, Forall (fun o => length o = length t) os ->
  bit (remaining t os) i = bit t i && forallb (fun o => negb (bit o i)) os.
Proof.
  induction os as [|o os IH]; intros t i H; simpl; [now rewrite andb_true_r|]. inversion H; subst.
  rewrite IH by (rewrite (step_length t o (length t)); auto).
  rewrite bit_step by congruence. now rewrite andb_assoc.
Qed.
Lemma bit_positional : forall os t k i, Forall (fun o => length o = length t) os -> k < length os ->
  bit (nth k (positional t os) []) i = bit t i && bit (nth k os []) i && forallb (fun o => negb (bit o i)) (firstn k os).
Proof.
  induction os as [|o os IH]; intros t k i H Hk; simpl in Hk; [lia|]. inversion H; subst. destruct k as [|k].
  - cbn [positional nth firstn forallb]. unfold bit at 1. rewrite nth_bits_and. unfold bit. rewrite andb_true_r. apply andb_comm.
  - cbn [positional nth firstn forallb]. rewrite IH; [|rewrite (step_length t o (length t)); auto|lia].
    rewrite bit_step by congruence.
    destruct (bit t i), (bit (nth k os []) i), (bit o i), (forallb (fun o0 => negb (bit o0 i)) (firstn k os)); reflexivity.
Qed.
Lemma count_split : forall t o, length t = length o ->
  bits_count t = bits_count (bits_and o t) + bits_count (bits_and t (bits_not (bits_and o t))).
Proof.
  induction t as [|x t IH]; intros [|y o] H; simpl in H; try discriminate; [reflexivity|].
  injection H as H. specialize (IH o H). unfold bits_count, bits_and, bits_not in *. simpl.
  destruct x, y; simpl; lia.
Qed.
Lemma total_positional : forall os t, Forall (fun o => length o = length t) os ->
  total (positional t os) + bits_count (remaining t os) = bits_count t.
Proof.
  induction os as [|o os IH]; intros t H; [reflexivity|]. inversion H; subst. unfold total in *. simpl.
  rewrite <- Nat.add_assoc, IH by (rewrite (step_length t o (length t)); auto). symmetry. apply count_split. congruence.
Qed.

(** Invariant: the object is determined by the stack. *)
Definition sl_inv (pos neg : list bool) (n : nat) (st : list (subgroup * list bool * list bool)) (l : sglist) : Prop :=
  let ps := map (fun x => snd (fst x)) st in let ns := map snd st in
  Forall (fun o => length o = n) ps /\ Forall (fun o => length o = n) ns /\
  l = SL (remaining pos ps) (remaining neg ns) (bits_count pos, n) (map (fun x => fst (fst x)) st)
         (positional pos ps) (positional neg ns) ps ns.

Lemma subgroup_copy_id : forall g, subgroup_copy g = g. Proof. now intros []. Qed.

Lemma sl_step_inv : forall pos neg n st l o, length pos = n -> length neg = n ->
  sl_inv pos neg n st l -> sl_inv pos neg n (stack_step n st o) (sl_step l o).
Proof.
  intros pos neg n st l o Lp Ln (F1 & F2 & ->). destruct o as [g p q|]; unfold sl_step.
  - unfold sl_add, sl_number_of_instances. cbn [sl_distribution snd stack_step].
    rewrite (Nat.eqb_sym (length p)), (Nat.eqb_sym (length q)).
    destruct (n =? length p) eqn:E1; cbn [negb andb]; [|now split].
    destruct (n =? length q) eqn:E2; cbn [negb]; [|now split].
    apply Nat.eqb_eq in E1. apply Nat.eqb_eq in E2. unfold sl_inv. rewrite !map_app.
    cbn [map snd fst sl_default_pos sl_default_neg sl_subgroups sl_pos sl_neg sl_orig_pos sl_orig_neg].
    split; [apply Forall_app; split; auto|]. split; [apply Forall_app; split; auto|].
    now rewrite !positional_app, !remaining_app, subgroup_copy_id.
  - unfold sl_delete_last. cbn [sl_subgroups]. rewrite map_length. destruct st as [|x0 st0].
    { simpl. now split. }
    destruct (exists_last (l := x0 :: st0)) as (st' & x & E); [discriminate|]. cbn [stack_step]. rewrite E in *. clear E x0 st0.
    assert (L : (0 <? length (st' ++ [x])) = true) by (apply Nat.ltb_lt; rewrite app_length; simpl; lia). rewrite L.
    rewrite !map_app in *. cbn [map] in *. cbn [sl_pos sl_neg sl_default_pos sl_default_neg sl_distribution sl_subgroups sl_orig_pos sl_orig_neg].
    rewrite !positional_app, !last_elem_app. cbn [bind]. rewrite !removelast_last.
    apply Forall_app in F1. destruct F1 as (F1 & G1). inversion G1; subst.
    apply Forall_app in F2. destruct F2 as (F2 & G2). inversion G2; subst.
    unfold sl_inv. split; [assumption|]. split; [assumption|].
    rewrite !remaining_app.
    rewrite (undo (remaining pos _) _ (length pos)); [|now apply remaining_length|assumption].
    rewrite (undo (remaining neg _) _ (length pos)); [|now apply remaining_length|assumption].
    reflexivity.
Qed.
Lemma sl_history_inv_gen : forall pos neg n ops st l, length pos = n -> length neg = n ->
  sl_inv pos neg n st l -> sl_inv pos neg n (fold_left (stack_step n) ops st) (sl_history l ops).
Proof.
  intros pos neg n. induction ops as [|o ops IH]; intros st l Lp Ln H; [exact H|]. unfold sl_history. simpl.
  apply IH; auto. now apply sl_step_inv.
Qed.
Lemma sl_history_inv : forall pos neg n ops l, sl_init pos neg n = Ok l ->
  length pos = n /\ length neg = n /\ sl_inv pos neg n (stack_history n ops) (sl_history l ops).
Proof.
  intros pos neg n ops l H. unfold sl_init in H.
  destruct (n =? length pos) eqn:E1; cbn [negb] in H; [|discriminate].
  destruct (n =? length neg) eqn:E2; cbn [negb] in H; [|discriminate]. injection H as <-.
  apply Nat.eqb_eq in E1. apply Nat.eqb_eq in E2. split; [auto|]. split; [auto|].
  apply sl_history_inv_gen; auto. repeat split; constructor.
Qed.

Lemma nth_negb : forall t i, i < length t -> bit (map negb t) i = negb (bit t i).
Proof. intros. now apply nth_bits_not. Qed.

Lemma sl_attribution : forall tgt n ops l, sl_init tgt (map negb tgt) n = Ok l ->
  let l' := sl_history l ops in let st := stack_history n ops in
  sl_len l' = length st /\
  forall i, i < n -> forall o, attributed l' i o <->
    match o with
    | Some k => exists x, nth_error st k = Some x /\ covers tgt x i = true /\
                          (forall j y, j < k -> nth_error st j = Some y -> covers tgt y i = false)
    | None => forall y, In y st -> covers tgt y i = false
    end.
Proof.
  intros tgt n ops l H l' st. destruct (sl_history_inv _ _ _ ops _ H) as (Lp & Ln & F1 & F2 & E).
  fold l' st in E. fold st in F1, F2. split; [unfold sl_len; rewrite E; simpl; apply map_length|].
  intros i Hi o.
  assert (Hn : bit (map negb tgt) i = negb (bit tgt i)) by (apply nth_negb; lia).
  assert (A1 : Forall (fun o => length o = length tgt) (map (fun x => snd (fst x)) st)) by now rewrite Lp.
  assert (A2 : Forall (fun o => length o = length (map negb tgt)) (map snd st)) by now rewrite Ln.
  destruct o as [k|]; unfold attributed; rewrite E; cbn [sl_len sl_subgroups sl_pos sl_neg sl_default_pos sl_default_neg].
  - unfold sl_len. cbn [sl_subgroups]. rewrite map_length. split.
    + intros (Hk & Hb). destruct (nth_error st k) as [x|] eqn:Ex; [|apply nth_error_None in Ex; lia].
      exists x. split; [reflexivity|].
      rewrite !bit_positional in Hb by (try assumption; now rewrite map_length).
      assert (N1 : nth k (map (fun x => snd (fst x)) st) [] = snd (fst x)) by (exact (nth_error_nth _ _ _ (map_nth_error (fun x => snd (fst x)) _ _ Ex))).
      assert (N2 : nth k (map snd st) [] = snd x) by (exact (nth_error_nth _ _ _ (map_nth_error snd _ _ Ex))).
      rewrite N1, N2, Hn in Hb. unfold covers. destruct x as ((g & p) & q). simpl in Hb.
      rewrite !andb_true_iff, !negb_true_iff in Hb.
      destruct (bit tgt i) eqn:T.
      * destruct Hb as [((_ & B) & C)|((X & _) & _)]; [|discriminate]. split; [assumption|].
        intros j y Hj Hy. destruct y as ((g' & p') & q'). rewrite forallb_forall in C.
        assert (In p' (firstn k (map (fun x => snd (fst x)) st))).
        { rewrite firstn_map. apply in_map_iff. exists (g', p', q'). split; [reflexivity|].
          apply nth_error_In with j. rewrite <- Hy. rewrite <- (firstn_skipn k st) at 2. rewrite nth_error_app1; [reflexivity|].
          rewrite firstn_length. lia. }
        apply C in H0. now apply negb_true_iff.
      * destruct Hb as [((X & _) & _)|((_ & B) & C)]; [discriminate|]. split; [assumption|].
        intros j y Hj Hy. destruct y as ((g' & p') & q'). rewrite forallb_forall in C.
        assert (In q' (firstn k (map snd st))).
        { rewrite firstn_map. apply in_map_iff. exists (g', p', q'). split; [reflexivity|].
          apply nth_error_In with j. rewrite <- Hy. rewrite <- (firstn_skipn k st) at 2. rewrite nth_error_app1; [reflexivity|].
          rewrite firstn_length. lia. }
        apply C in H0. now apply negb_true_iff.
    + intros (x & Ex & Hc & Hf). assert (Hk : k < length st) by (apply nth_error_Some; congruence). split; [assumption|].
      rewrite !bit_positional by (try assumption; now rewrite map_length).
      assert (N1 : nth k (map (fun x => snd (fst x)) st) [] = snd (fst x)) by (exact (nth_error_nth _ _ _ (map_nth_error (fun x => snd (fst x)) _ _ Ex))).
      assert (N2 : nth k (map snd st) [] = snd x) by (exact (nth_error_nth _ _ _ (map_nth_error snd _ _ Ex))).
      rewrite N1, N2, Hn. unfold covers in Hc. destruct x as ((g & p) & q). simpl.
      assert (Z : forall y, In y (firstn k st) -> covers tgt y i = false).
      { intros y Hy. apply In_nth_error in Hy. destruct Hy as (j & Hj).
        assert (Hjl : j < length (firstn k st)) by (apply nth_error_Some; congruence). rewrite firstn_length in Hjl.
        apply (Hf j); [lia|]. rewrite <- (firstn_skipn k st). rewrite nth_error_app1; [assumption|]. rewrite firstn_length. lia. }
      destruct (bit tgt i) eqn:T; [left|right]; rewrite Hc; simpl; apply forallb_forall; intros b Hb; rewrite firstn_map in Hb;
        apply in_map_iff in Hb; destruct Hb as (((g' & p') & q') & <- & Hy); specialize (Z _ Hy); unfold covers in Z; rewrite T in Z; simpl;
        now rewrite Z.
  - rewrite !bit_remaining by assumption. rewrite Hn, !andb_true_iff, !forallb_forall, negb_true_iff. split.
    + intros Hb y Hy. destruct y as ((g & p) & q). unfold covers. destruct (bit tgt i) eqn:T.
      * destruct Hb as [(_ & C)|(X & _)]; [|discriminate]. apply negb_true_iff, C, in_map_iff. now exists (g, p, q).
      * destruct Hb as [(X & _)|(_ & C)]; [discriminate|]. apply negb_true_iff, C, in_map_iff. now exists (g, p, q).
    + intros Hc. destruct (bit tgt i) eqn:T; [left|right]; (split; [reflexivity|]); intros b Hb; apply in_map_iff in Hb;
        destruct Hb as (((g & p) & q) & <- & Hy); specialize (Hc _ Hy); unfold covers in Hc; rewrite T in Hc; simpl; now rewrite Hc.
Qed.

Lemma first_cover : forall tgt i st,
  (forall y, In y st -> covers tgt y i = false) \/
  (exists k x, nth_error st k = Some x /\ covers tgt x i = true /\ forall j y, j < k -> nth_error st j = Some y -> covers tgt y i = false).
Proof.
  intros tgt i. induction st as [|x st IH]; [left; intros y []|]. destruct (covers tgt x i) eqn:E.
  - right. exists 0, x. split; [reflexivity|]. split; [assumption|]. lia.
  - destruct IH as [IH|(k & y & Hk & Hc & Hf)].
    + left. intros y [<-|Hy]; auto.
    + right. exists (S k), y. split; [assumption|]. split; [assumption|]. intros [|j] z Hj Hz; simpl in Hz; [congruence|].
      apply (Hf j); [lia|assumption].
Qed.
Lemma sl_partition : forall tgt n ops l, sl_init tgt (map negb tgt) n = Ok l ->
  forall i, i < n -> exists! o, attributed (sl_history l ops) i o.
Proof.
  intros tgt n ops l H i Hi. destruct (sl_attribution tgt n ops l H) as (_ & A). specialize (A i Hi).
  destruct (first_cover tgt i (stack_history n ops)) as [N|(k & x & Hk & Hc & Hf)].
  - exists None. split; [now apply A|]. intros [k|] Ho; [|reflexivity]. apply A in Ho. destruct Ho as (x & Hx & Hc & _).
    apply nth_error_In in Hx. rewrite (N _ Hx) in Hc. discriminate.
  - exists (Some k). split; [apply A; eauto|]. intros [k'|] Ho; apply A in Ho.
    + destruct Ho as (x' & Hk' & Hc' & Hf'). destruct (lt_eq_lt_dec k k') as [[L| ->]|L]; [|reflexivity|].
      * rewrite (Hf' _ _ L Hk) in Hc. discriminate.
      * rewrite (Hf _ _ L Hk') in Hc'. discriminate.
    + rewrite (Ho x) in Hc; [discriminate|]. now apply nth_error_In in Hk.
Qed.
Lemma sl_counts : forall pos neg n ops l, sl_init pos neg n = Ok l -> let l' := sl_history l ops in
  total (sl_pos l') + bits_count (sl_default_pos l') = bits_count pos /\
  total (sl_neg l') + bits_count (sl_default_neg l') = bits_count neg /\
  sl_number_of_positives l' = bits_count pos /\ sl_number_of_instances l' = n.
Proof.
  intros pos neg n ops l H l'. destruct (sl_history_inv _ _ _ ops _ H) as (Lp & Ln & F1 & F2 & E). unfold l'. rewrite E. simpl.
  repeat split; apply total_positional; rewrite ?Lp, ?Ln; assumption.
Qed.
Lemma count_negb : forall t, bits_count (map negb t) + bits_count t = length t.
Proof. induction t as [|[] t IH]; unfold bits_count in *; simpl; lia. Qed.
Lemma sl_add_delete : forall pos neg n ops l g p q l1, sl_init pos neg n = Ok l ->
  sl_add (sl_history l ops) g p q = Ok l1 -> sl_delete_last l1 = Ok (sl_history l ops).
Proof.
  intros pos neg n ops l g p q l1 H Ha. destruct (sl_history_inv _ _ _ ops _ H) as (Lp & Ln & F1 & F2 & E).
  rewrite E in *. unfold sl_add, sl_number_of_instances in Ha. cbn [sl_distribution snd] in Ha.
  destruct (n =? length p) eqn:E1; cbn [negb] in Ha; [|discriminate].
  destruct (n =? length q) eqn:E2; cbn [negb] in Ha; [|discriminate]. injection Ha as <-.
  apply Nat.eqb_eq in E1. apply Nat.eqb_eq in E2. unfold sl_delete_last.
  cbn [sl_pos sl_neg sl_default_pos sl_default_neg sl_distribution sl_subgroups sl_orig_pos sl_orig_neg].
  assert (L : forall (x : list subgroup) y, (0 <? length (x ++ [y])) = true) by (intros; apply Nat.ltb_lt; rewrite app_length; simpl; lia).
  rewrite L, !last_elem_app. cbn [bind]. rewrite !removelast_last.
  rewrite (undo (remaining pos _) p n); [|now apply remaining_length|auto].
  rewrite (undo (remaining neg _) q n); [|now apply remaining_length|auto]. reflexivity.
Qed.
Lemma sl_delete_total : forall pos neg n ops l, sl_init pos neg n = Ok l ->
  exists l1, sl_delete_last (sl_history l ops) = Ok l1.
Proof.
  intros pos neg n ops l H. destruct (sl_history_inv _ _ _ ops _ H) as (Lp & Ln & F1 & F2 & E). rewrite E.
  unfold sl_delete_last. cbn [sl_pos sl_neg sl_subgroups]. rewrite map_length.
  destruct (stack_history n ops) as [|x0 st0] eqn:Es; [simpl; eauto|].
  destruct (exists_last (l := x0 :: st0)) as (st' & y & E'); [discriminate|]. rewrite E'. rewrite app_length. simpl length.
  rewrite !map_app. simpl map. rewrite !positional_app, !last_elem_app. simpl. destruct (0 <? length st' + 1); eauto.
Qed.
