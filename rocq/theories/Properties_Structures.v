(** Theorems C21-C24: vertical lists and subgroup lists. *)
From Verif Require Import VerticalSpec VerticalProofs SubgroupListSpec SubgroupListProofs QualityModel.
Open Scope string_scope.
Open Scope list_scope.
Open Scope nat_scope.

(** * C21 *)
Theorem C21_vertical_list_exact_sets : forall V df t (qf : nat -> nat -> res V) v,
  built_on df t qf vls_init (vls_join qf) v ->
  describes_rows df t qf v /\
  (forall i, In i (vl_seq_tp v) <-> i < df_n df /\ row_matchesb df i t = true /\ matches_all df (vl_sels v) i = true) /\
  (forall i, In i (vl_seq_fp v) <-> i < df_n df /\ row_matchesb df i t = false /\ matches_all df (vl_sels v) i = true).
Proof.
  intros V df t qf v H. destruct (built_sets_exact df t qf v H) as ((_ & _ & M1 & M2) & D). split; [assumption|].
  split; intros i; [rewrite M1; apply in_pos_rows|rewrite M2; apply in_neg_rows].
Qed.
Print Assumptions C21_vertical_list_exact_sets.
Theorem C21_vertical_list_exact_bitsets : forall V df t (qf : nat -> nat -> res V) v,
  built_on df t qf vlb_init (vlb_join qf) v ->
  describes_rows df t qf v /\
  (forall i, nth i (vl_seq_tp v) false = true <-> i < df_n df /\ row_matchesb df i t = true /\ matches_all df (vl_sels v) i = true) /\
  (forall i, nth i (vl_seq_fp v) false = true <-> i < df_n df /\ row_matchesb df i t = false /\ matches_all df (vl_sels v) i = true).
Proof.
  intros V df t qf v H. destruct (built_bits_exact df t qf v H) as ((M1 & M2) & D). split; [assumption|].
  split; intros i; [rewrite M1; apply in_pos_rows|rewrite M2; apply in_neg_rows].
Qed.
Print Assumptions C21_vertical_list_exact_bitsets.
(** [compute_quality_value] with any measure and parameters: the measure on the numbers of positive and negative rows of
    the selectors. *)
Theorem C21_compute_quality : forall V df t (qf : nat -> nat -> res V) (other : nat -> nat -> res V),
  (forall v, built_on df t qf vls_init (vls_join qf) v -> vl_compute_quality v other = other (length (pos_rows df t (vl_sels v))) (length (neg_rows df t (vl_sels v)))) /\
  (forall v, built_on df t qf vlb_init (vlb_join qf) v -> vl_compute_quality v other = other (length (pos_rows df t (vl_sels v))) (length (neg_rows df t (vl_sels v)))).
Proof.
  intros V df t qf other. split; intros v H; [destruct (C21_vertical_list_exact_sets _ _ _ _ _ H) as (D & _)|destruct (C21_vertical_list_exact_bitsets _ _ _ _ _ H) as (D & _)].
  all: unfold vl_compute_quality; destruct D as (-> & -> & _); auto.
Qed.
Theorem C21_join_none : forall V df t (qf : nat -> nat -> res V) a b flag,
  built_on df t qf vls_init (vls_join qf) a -> built_on df t qf vls_init (vls_join qf) b ->
  incl (removelast (vl_sels b)) (vl_sels a) ->
  (vls_join qf a b flag = Ok None <-> flag = true /\ coverage df (vl_sels a ++ vl_sels b) = 0) /\
  (forall e, vls_join qf a b flag = Err e ->
     qf (length (pos_rows df t (vl_sels a ++ vl_sels b))) (length (neg_rows df t (vl_sels a ++ vl_sels b))) = Err e).
Proof. intros V. exact vls_join_cases. Qed.
Print Assumptions C21_join_none.
Theorem C21_join_size_error : forall V (qf : nat -> nat -> res V) flag,
  (forall a b, vl_size a <> vl_size b -> vls_join qf a b flag = Err VerticalListSizeError) /\
  (forall a b, vl_size a <> vl_size b -> vlb_join qf a b flag = Err VerticalListSizeError).
Proof.
  intros V qf flag. split; intros a b H; apply Nat.eqb_neq in H; [unfold vls_join|unfold vlb_join]; now rewrite H.
Qed.
Print Assumptions C21_join_size_error.
(** The quality dictionary's own "tp" and "fp" are ignored. *)
Definition with_counts (d : params) (tp fp : nat) : params :=
  ("tp", inject_Z (Z.of_nat tp)) :: ("fp", inject_Z (Z.of_nat fp)) :: d.
Definition measure_on (m : measure) (d : params) (tp fp : nat) : res Q := compute m (with_counts d tp fp).
Definition vdf := DF 4 [("a", [VStr "x"; VStr "x"; VStr "x"; VStr "y"]); ("b", [VStr "u"; VStr "u"; VStr "w"; VStr "u"]);
                        ("y", [VStr "p"; VStr "n"; VStr "p"; VStr "p"])].
Definition vt := Sel "y" EQUAL (VStr "p").
Definition va := Sel "a" EQUAL (VStr "x").
Definition vb := Sel "b" EQUAL (VStr "u").
Example C21_nonvacuous : exists v, built_on vdf vt (measure_on PPV [("tp", 9%Q)]) vlb_init (vlb_join (measure_on PPV [("tp", 9%Q)])) v /\
  vl_sels v = [va; vb] /\ vl_tp v = 1 /\ vl_fp v = 1 /\ vl_seq_tp v = [true; false; false; false].
Proof.
  eexists. split; [|split; [|split]].
  - eapply built_join with (flag := true).
    + eapply built_base with (s := va); vm_compute; reflexivity.
    + eapply built_base with (s := vb); vm_compute; reflexivity.
    + vm_compute. intros x [].
    + vm_compute. reflexivity.
  - vm_compute. reflexivity.
  - vm_compute. reflexivity.
  - vm_compute. split; reflexivity.
Qed.
(** Without the discipline on joins (first n-1 selectors of the second list in the first one)
    the rows are those of more selectors than the list says. *)
Theorem C21_undisciplined_join_refuted : exists e v,
  eval_sets (fun tp fp => Ok (tp + fp)) e = Ok (Some v) /\ vl_sels v = [vb; vt] /\
  vl_n v <> coverage vdf (vl_sels v) /\
  e = VJoin (VBase [vb] [0; 3] [1] 4 0) (VJoin (VBase [va] [0; 2] [1] 4 0) (VBase [vt] [0; 2; 3] [] 4 0) false) false.
Proof.
  exists (VJoin (VBase [vb] [0; 3] [1] 4 0) (VJoin (VBase [va] [0; 2] [1] 4 0) (VBase [vt] [0; 2; 3] [] 4 0) false) false).
  eexists. split; [vm_compute; reflexivity|]. repeat split. vm_compute. discriminate.
Qed.
Print Assumptions C21_undisciplined_join_refuted.

(** * C22 *)
Theorem C22_representations_interchangeable : forall V (qf : nat -> nat -> res V) e, ids_in_range e ->
  observe_res (eval_sets qf e) = observe_res (eval_bits qf e).
Proof. intros V. exact representations_agree. Qed.
Print Assumptions C22_representations_interchangeable.
Example C22_nonvacuous :
  let e := VJoin (VJoin (VBase [va] [0; 2] [1] 4 0%nat) (VBase [vb] [0; 3; 3] [1] 4 0) true) (VBase [vt] [0] [] 4 0) true in
  ids_in_range e /\ observe_res (eval_bits (fun tp fp => Ok (10 * tp + fp)) e) = Ok (Some ([va; vb; vt], 1, 0, 1, 4, 10)).
Proof. split; [simpl; repeat split; intros i H; repeat destruct H as [H|H]; lia|vm_compute; reflexivity]. Qed.

(** * C23 *)
Theorem C23_partition : forall tgt n ops l, sl_init tgt (map negb tgt) n = Ok l ->
  forall i, i < n -> exists! o, attributed (sl_history l ops) i o.
Proof. exact sl_partition. Qed.
Print Assumptions C23_partition.
Theorem C23_first_covering_subgroup : forall tgt n ops l, sl_init tgt (map negb tgt) n = Ok l ->
  let l' := sl_history l ops in let st := stack_history n ops in
  sl_len l' = length st /\
  forall i, i < n -> forall o, attributed l' i o <->
    match o with
    | Some k => exists x, nth_error st k = Some x /\ covers tgt x i = true /\
                          (forall j y, j < k -> nth_error st j = Some y -> covers tgt y i = false)
    | None => forall y, In y st -> covers tgt y i = false
    end.
Proof. exact sl_attribution. Qed.
Print Assumptions C23_first_covering_subgroup.
Theorem C23_counts_add_up : forall pos neg n ops l, sl_init pos neg n = Ok l -> let l' := sl_history l ops in
  total (sl_pos l') + bits_count (sl_default_pos l') = bits_count pos /\
  total (sl_neg l') + bits_count (sl_default_neg l') = bits_count neg /\
  sl_number_of_positives l' = bits_count pos /\ sl_number_of_instances l' = n.
Proof. exact sl_counts. Qed.
Print Assumptions C23_counts_add_up.
Definition sg0 := SG [va] vt.
Definition ex_ops := [SLAdd sg0 [true; false; true; false] [false; true; false; false]; SLDelete;
                      SLAdd sg0 [true; false; false] [false; false; false];
                      SLAdd sg0 [true; false; false; true] [false; true; false; false];
                      SLAdd sg0 [true; false; true; false] [false; true; false; false]].
Example C23_nonvacuous : exists l, sl_init [true; false; true; true] [false; true; false; false] 4 = Ok l /\
  sl_len (sl_history l ex_ops) = 2 /\ attributed (sl_history l ex_ops) 0 (Some 0) /\ attributed (sl_history l ex_ops) 2 (Some 1).
Proof. eexists. split; [reflexivity|]. vm_compute. repeat split; auto. Qed.

(** * C24 *)
Theorem C24_delete_undoes_add : forall pos neg n ops l g p q l1, sl_init pos neg n = Ok l ->
  sl_add (sl_history l ops) g p q = Ok l1 -> sl_delete_last l1 = Ok (sl_history l ops).
Proof. exact sl_add_delete. Qed.
Print Assumptions C24_delete_undoes_add.
Theorem C24_delete_on_empty : forall l, sl_is_empty l = true -> sl_delete_last l = Ok l.
Proof. intros l H. unfold sl_delete_last, sl_is_empty in *. apply Nat.eqb_eq in H. now rewrite H. Qed.
Print Assumptions C24_delete_on_empty.
Theorem C24_delete_never_fails : forall pos neg n ops l, sl_init pos neg n = Ok l ->
  exists l1, sl_delete_last (sl_history l ops) = Ok l1.
Proof. exact sl_delete_total. Qed.
Print Assumptions C24_delete_never_fails.
Theorem C24_rejected_addition : forall l g p q,
  (exists l1, sl_add l g p q = Ok l1) <-> length p = sl_number_of_instances l /\ length q = sl_number_of_instances l.
Proof.
  intros l g p q. unfold sl_add. rewrite (Nat.eqb_sym _ (length p)), (Nat.eqb_sym _ (length q)).
  destruct (length p =? sl_number_of_instances l) eqn:E1; cbn [negb].
  - destruct (length q =? sl_number_of_instances l) eqn:E2; cbn [negb].
    + apply Nat.eqb_eq in E1. apply Nat.eqb_eq in E2. split; eauto.
    + apply Nat.eqb_neq in E2. split; [intros (l1 & X); discriminate|tauto].
  - apply Nat.eqb_neq in E1. split; [intros (l1 & X); discriminate|tauto].
Qed.
Print Assumptions C24_rejected_addition.
Example C24_nonvacuous : exists l l1, sl_init [true; false; true; true] [false; true; false; false] 4 = Ok l /\
  sl_add (sl_history l ex_ops) sg0 [true; true; true; true] [true; true; true; true] = Ok l1 /\
  sl_delete_last l1 = Ok (sl_history l ex_ops) /\ l1 <> sl_history l ex_ops.
Proof. do 2 eexists. split; [reflexivity|]. split; [vm_compute; reflexivity|]. split; [vm_compute; reflexivity|]. vm_compute. discriminate. Qed.
