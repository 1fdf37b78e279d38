(** Operators (C01), dataframes (C10, C11, C13) and refinement (C12). *)
From Coq Require Import QArith.
From Verif Require Import Base OrderFacts CoreModel CoreSpec CoreOrder CorePattern CoreText.
Open Scope string_scope.
Open Scope list_scope.
Open Scope nat_scope.

(** * C01 *)
Lemma str_lt_compare a b : str_lt a b <-> String.compare a b = Lt.
Proof.
  split.
  - intros (p & [(-> & c & r & ->)|(c & d & r & r' & -> & -> & Hcd)]).
    + induction p as [|x p IH]; simpl; [reflexivity|]. unfold Ascii.compare. now rewrite N.compare_refl.
    + induction p as [|x p IH]; simpl; unfold Ascii.compare.
      * apply N.compare_lt_iff in Hcd. now rewrite Hcd.
      * now rewrite N.compare_refl.
  - revert b. induction a as [|x a IH]; intros [|y b]; simpl; try discriminate.
    + intros _. exists ""%string. left. split; [reflexivity|]. now exists y, b.
    + unfold Ascii.compare. destruct (N.compare_spec (N_of_ascii x) (N_of_ascii y)) as [E|E|E]; try discriminate.
      * intro H. apply IH in H. assert (x = y).
        { rewrite <- (ascii_N_embedding x), <- (ascii_N_embedding y). congruence. }
        subst y. destruct H as (p & H). exists (String x p).
        destruct H as [(-> & c & r & ->)|(c & d & r & r' & -> & -> & Hcd)]; [left|right].
        -- split; [reflexivity|]. now exists c, r.
        -- now exists c, d, r, r'.
      * intros _. exists ""%string. right. now exists x, y, a, b.
Qed.
Lemma p10_Zpow e : p10 e = Z.pos (Z.to_pos (10 ^ Z.of_nat e)).
Proof. unfold p10. rewrite Z2Pos.id; [reflexivity|]. apply Z.pow_pos_nonneg; lia. Qed.
Lemma vcmp_eq v w : vcmp v w = Eq <-> val_eq v w.
Proof.
  destruct v as [a|z|m e], w as [b|z'|m' e']; simpl; try (split; [discriminate|contradiction]); unfold ncmp, Qeq; simpl.
  - split; [apply String.compare_eq_iff|intros ->; apply string_compare_refl].
  - rewrite Z.compare_eq_iff. reflexivity.
  - rewrite Z.compare_eq_iff, !p10_Zpow. reflexivity.
  - rewrite Z.compare_eq_iff, !p10_Zpow. reflexivity.
  - rewrite Z.compare_eq_iff, !p10_Zpow. reflexivity.
Qed.
Lemma vcmp_lt v w : comparable v w -> (vcmp v w = Lt <-> val_lt v w).
Proof.
  unfold comparable.
  destruct v as [a|z|m e], w as [b|z'|m' e']; simpl; try discriminate; intros _; unfold ncmp, Qlt; simpl.
  - symmetry. apply str_lt_compare.
  - rewrite Z.compare_lt_iff. reflexivity.
  - rewrite Z.compare_lt_iff, !p10_Zpow. reflexivity.
  - rewrite Z.compare_lt_iff, !p10_Zpow. reflexivity.
  - rewrite Z.compare_lt_iff, !p10_Zpow. reflexivity.
Qed.
Lemma py_eq_holds v w : py_eq v w = true <-> val_eq v w.
Proof. rewrite py_eq_cmp, <- vcmp_eq. destruct (vcmp v w); split; congruence. Qed.
Lemma py_lt_cmp v w : comparable v w -> py_lt v w = Ok (match vcmp v w with Lt => true | _ => false end).
Proof.
  unfold comparable. destruct v, w; simpl; try discriminate; intros _; unfold ncmp; simpl;
    rewrite ?Z.ltb_compare, ?string_ltb_compare; reflexivity.
Qed.
Lemma py_le_cmp v w : comparable v w -> py_le v w = Ok (match vcmp v w with Gt => false | _ => true end).
Proof.
  unfold comparable. destruct v, w; simpl; try discriminate; intros _; unfold ncmp; simpl;
    rewrite ?Z.leb_compare, ?string_leb_compare; reflexivity.
Qed.
Lemma evaluate_holds o v w : (comparable v w \/ ~ is_order o) ->
  exists b, op_evaluate o v w = Ok b /\ (b = true <-> holds o v w).
Proof.
  intro H.
  assert (Hc : is_order o -> comparable v w) by (destruct H; [auto|tauto]). unfold is_order in Hc.
  destruct o; simpl.
  - exists (py_eq v w). split; [reflexivity|apply py_eq_holds].
  - exists (negb (py_eq v w)). split; [reflexivity|].
    rewrite negb_true_iff, <- py_eq_holds. destruct (py_eq v w); split; congruence.
  - assert (Hvw : comparable v w) by (apply Hc; split; discriminate).
    exists (match vcmp v w with Lt => true | _ => false end).
    split; [now apply py_lt_cmp|]. rewrite <- (vcmp_lt v w Hvw). destruct (vcmp v w); split; congruence.
  - assert (Hvw : comparable w v) by (symmetry; apply Hc; split; discriminate).
    exists (match vcmp w v with Lt => true | _ => false end).
    split; [now apply py_lt_cmp|]. rewrite <- (vcmp_lt w v Hvw). destruct (vcmp w v); split; congruence.
  - assert (Hvw : comparable v w) by (apply Hc; split; discriminate).
    exists (match vcmp v w with Gt => false | _ => true end).
    split; [now apply py_le_cmp|]. rewrite <- (vcmp_lt v w Hvw), <- (vcmp_eq v w).
    destruct (vcmp v w); split; intuition congruence.
  - assert (Hvw : comparable w v) by (symmetry; apply Hc; split; discriminate).
    exists (match vcmp w v with Gt => false | _ => true end).
    split; [now apply py_le_cmp|]. rewrite <- (vcmp_lt w v Hvw), <- (vcmp_eq v w), (vcmp_sym w v).
    destruct (vcmp w v); simpl; split; intuition congruence.
Qed.
Lemma evaluate_type_error o v w : ~ comparable v w -> is_order o -> op_evaluate o v w = Err TypeError.
Proof.
  unfold comparable, is_order. intros Hc [H1 H2].
  destruct v, w; simpl in Hc; try congruence; destruct o; simpl; congruence.
Qed.
Lemma evaluate_mixed v w : ~ comparable v w ->
  op_evaluate EQUAL v w = Ok false /\ op_evaluate NOT_EQUAL v w = Ok true.
Proof. unfold comparable. destruct v, w; simpl; intro H; try congruence; split; reflexivity. Qed.
Lemma op_order_total a b :
  (op_lt a b = true <-> op_value a < op_value b) /\ (op_eq a b = true <-> a = b) /\
  op_gt a b = op_lt b a /\ op_ne a b = negb (op_eq a b) /\
  op_le a b = op_lt a b || op_eq a b /\ op_ge a b = op_lt b a || op_eq a b.
Proof. destruct a, b; cbv; repeat split; intros; try reflexivity; try congruence; try lia. Qed.

(** * Masks *)
Lemma map_res_ok {A B} (f : A -> res B) l r : map_res f l = Ok r -> Forall2 (fun x y => f x = Ok y) l r.
Proof.
  revert r. induction l as [|x l IH]; intros r H; simpl in H; [inversion H; constructor|].
  destruct (f x) as [y|] eqn:E; cbn [bind] in H; [|discriminate].
  destruct (map_res f l) as [ys|] eqn:El; cbn [bind] in H; [|discriminate].
  inversion H; subst. constructor; [assumption|now apply IH].
Qed.
Lemma map_res_total {A B} (f : A -> res B) l : (forall x, In x l -> exists y, f x = Ok y) -> exists r, map_res f l = Ok r.
Proof.
  induction l as [|x l IH]; intro H; simpl; [now exists []|].
  destruct (H x (or_introl eq_refl)) as [y Ey]. rewrite Ey. cbn [bind].
  destruct IH as [ys Eys]; [intros z Hz; apply H; now right|]. rewrite Eys. cbn [bind]. now exists (y :: ys).
Qed.
Lemma nth_series_and a : forall b i, length a = length b ->
  nth i (series_and a b) false = nth i a false && nth i b false.
Proof.
  unfold series_and. induction a as [|x a IH]; intros [|y b] i H; simpl in *; try discriminate.
  - destruct i; reflexivity.
  - destruct i; [reflexivity|]. apply IH. lia.
Qed.
Lemma series_and_length a b : length a = length b -> length (series_and a b) = length a.
Proof. intro H. unfold series_and. rewrite map_length, combine_length. lia. Qed.
Lemma col_get_in cols a c : col_get cols a = Some c -> exists b, In (b, c) cols /\ b = a.
Proof.
  induction cols as [|[b d] cols IH]; simpl; [discriminate|].
  destruct (String.eqb_spec a b) as [->|]; [intro H; inversion H; subst; exists b; split; [now left|reflexivity]|].
  intro H. destruct (IH H) as (b' & Hb & E). exists b'. split; [now right|assumption].
Qed.
Lemma row_matchesb_spec df i s : row_matchesb df i s = true <-> row_matches df i s.
Proof.
  unfold row_matchesb, row_matches. destruct (cell df i (s_attr s)) as [v|]; split.
  - destruct (op_evaluate (s_op s) v (s_val s)) as [b|] eqn:E; [|discriminate]. intros ->. now exists v.
  - intros (w & H & E). inversion H; subst. now rewrite E.
  - discriminate.
  - intros (w & H & _). discriminate.
Qed.
Lemma series_row df s col m : wf_df df -> col_get (df_cols df) (s_attr s) = Some col ->
  op_evaluate_series (s_op s) col (s_val s) = Ok m ->
  length m = df_n df /\ forall i, i < df_n df -> nth i m false = row_matchesb df i s.
Proof.
  intros Hwf Hcol Hm. unfold op_evaluate_series in Hm. apply map_res_ok in Hm.
  destruct (col_get_in _ _ _ Hcol) as (b & Hin & ->). pose proof (Hwf _ _ Hin) as Hlen.
  split; [rewrite <- (Forall2_len _ _ _ Hm); assumption|].
  intros i Hi. unfold row_matchesb, cell. rewrite Hcol. rewrite <- Hlen in Hi.
  clear Hlen Hin Hcol. revert i Hi. induction Hm as [|x y col m E Hm IH]; intros i Hi; simpl in *; [lia|].
  destruct i as [|i]; simpl; [now rewrite E|]. apply IH. lia.
Qed.
Lemma any_true_false a : any_true a = false -> forall i, nth i a false = false.
Proof.
  unfold any_true. induction a as [|x a IH]; intros H i; [destruct i; reflexivity|].
  simpl in H. apply orb_false_iff in H. destruct H as [-> H]. destruct i; [reflexivity|]. now apply IH.
Qed.

Lemma contained_loop_spec df l : forall acc m, wf_df df -> length acc = df_n df ->
  contained_loop df acc l = Ok m ->
  length m = df_n df /\
  forall i, i < df_n df -> nth i m false = nth i acc false && forallb (row_matchesb df i) l.
Proof.
  induction l as [|s l IH]; intros acc m Hwf Hlen H; simpl in H.
  - destruct (any_true acc); inversion H; subst; (split; [assumption|]); intros i Hi; simpl; now rewrite andb_true_r.
  - destruct (any_true acc) eqn:Ea.
    + unfold df_col in H. destruct (col_get (df_cols df) (s_attr s)) as [col|] eqn:Ec; cbn [bind] in H; [|discriminate].
      destruct (op_evaluate_series (s_op s) col (s_val s)) as [ms|] eqn:Em; cbn [bind] in H; [|discriminate].
      destruct (series_row df s col ms Hwf Ec Em) as [Hl Hr].
      destruct (IH (series_and acc ms) m Hwf) as [H1 H2]; [rewrite series_and_length; congruence|assumption|].
      split; [assumption|]. intros i Hi. rewrite (H2 i Hi), nth_series_and by congruence.
      simpl. rewrite (Hr i Hi). now rewrite andb_assoc.
    + inversion H; subst. split; [assumption|]. intros i Hi. now rewrite (any_true_false _ Ea i).
Qed.
Lemma nth_repeat_true n i : i < n -> nth i (repeat true n) false = true.
Proof. revert i. induction n as [|n IH]; intros i Hi; [lia|]. destruct i; simpl; [reflexivity|]. apply IH. lia. Qed.
Lemma is_contained_bool p df m : wf_df df -> is_contained p df = Ok m ->
  length m = df_n df /\ forall i, i < df_n df -> nth i m false = forallb (row_matchesb df i) p.
Proof.
  intros Hwf H. destruct (contained_loop_spec df p _ m Hwf (repeat_length true _) H) as [H1 H2].
  split; [assumption|]. intros i Hi. rewrite (H2 i Hi), nth_repeat_true by assumption. reflexivity.
Qed.
Lemma is_contained_spec p df m : wf_df df -> is_contained p df = Ok m ->
  length m = df_n df /\
  forall i, i < df_n df -> (nth i m false = true <-> forall s, In s p -> row_matches df i s).
Proof.
  intros Hwf H. destruct (is_contained_bool p df m Hwf H) as [H1 H2]. split; [assumption|].
  intros i Hi. rewrite (H2 i Hi), forallb_forall. split; intros Hs s Hin; apply row_matchesb_spec; now apply Hs.
Qed.
Lemma contained_loop_total df l : forall acc, (forall s, In s l -> evaluable df s) ->
  exists m, contained_loop df acc l = Ok m.
Proof.
  induction l as [|s l IH]; intros acc H; simpl; [destruct (any_true acc); now exists acc|].
  destruct (any_true acc); [|now exists acc].
  destruct (H s (or_introl eq_refl)) as (c & Hc & Hev). unfold df_col. rewrite Hc. cbn [bind].
  destruct (map_res_total (fun x => op_evaluate (s_op s) x (s_val s)) c Hev) as [ms Hms].
  unfold op_evaluate_series. rewrite Hms. cbn [bind]. apply IH. intros t Ht. apply H. now right.
Qed.
Lemma is_contained_total p df : (forall s, In s p -> evaluable df s) -> exists m, is_contained p df = Ok m.
Proof. intro H. now apply contained_loop_total. Qed.
(** The KeyError is raised when the search reaches the missing column. *)
Lemma contained_loop_keyerror df l1 s l2 i : forall acc, wf_df df -> length acc = df_n df ->
  i < df_n df -> nth i acc false = true -> (forall t, In t l1 -> evaluable df t /\ row_matches df i t) ->
  ~ has_column df (s_attr s) -> contained_loop df acc (l1 ++ s :: l2) = Err KeyError.
Proof.
  induction l1 as [|t l1 IH]; intros acc Hwf Hlen Hi Hacc Hl1 Hs.
  - simpl. assert (Ha : any_true acc = true).
    { destruct (any_true acc) eqn:E; [reflexivity|]. rewrite (any_true_false _ E i) in Hacc. discriminate. }
    rewrite Ha. unfold df_col. destruct (col_get (df_cols df) (s_attr s)) as [c|] eqn:E; [|reflexivity].
    exfalso. apply Hs. now exists c.
  - simpl. assert (Ha : any_true acc = true).
    { destruct (any_true acc) eqn:E; [reflexivity|]. rewrite (any_true_false _ E i) in Hacc. discriminate. }
    rewrite Ha. destruct (Hl1 t (or_introl eq_refl)) as [(c & Hc & Hev) Hrow]. unfold df_col. rewrite Hc. cbn [bind].
    destruct (map_res_total (fun x => op_evaluate (s_op t) x (s_val t)) c Hev) as [ms Hms].
    unfold op_evaluate_series. rewrite Hms. cbn [bind].
    destruct (series_row df t c ms Hwf Hc Hms) as [Hml Hmr].
    apply IH; try assumption.
    + rewrite series_and_length; congruence.
    + rewrite nth_series_and by congruence. rewrite Hacc, (Hmr i Hi). apply row_matchesb_spec. assumption.
    + intros u Hu. apply Hl1. now right.
Qed.
Lemma is_contained_keyerror df l1 s l2 i : wf_df df -> i < df_n df ->
  (forall t, In t l1 -> evaluable df t /\ row_matches df i t) -> ~ has_column df (s_attr s) ->
  is_contained (l1 ++ s :: l2) df = Err KeyError.
Proof.
  intros Hwf Hi Hl1 Hs. apply (contained_loop_keyerror df l1 s l2 i); try assumption.
  - apply repeat_length.
  - now apply nth_repeat_true.
Qed.

(** * C11 *)
Lemma mask_filter {A} (m : list bool) : forall (l : list A), length m = length l ->
  mask_list m l = map snd (filter fst (combine m l)).
Proof.
  induction m as [|b m IH]; intros [|x l] H; simpl in *; try discriminate; [reflexivity|].
  destruct b; simpl; rewrite IH by lia; reflexivity.
Qed.
Lemma filter_map_S b m l : filter (fun i => match i with 0 => b | S k => nth k m false end) (map S l)
               = map S (filter (fun i => nth i m false) l).
Proof. induction l as [|k ks IHk]; simpl; [reflexivity|]. destruct (nth k m false); simpl; now rewrite IHk. Qed.
Lemma mask_nth {A} (m : list bool) : forall (l : list A) j, length m = length l ->
  nth_error (mask_list m l) j =
  match nth_error (filter (fun i => nth i m false) (seq 0 (length m))) j with
  | Some i => nth_error l i
  | None => None
  end.
Proof.
  induction m as [|b m IH]; intros [|x l] j H; simpl in *; try discriminate; [destruct j; reflexivity|].
  rewrite <- seq_shift.
  pose proof (filter_map_S b m (seq 0 (length m))) as Hs.
  destruct b; simpl; rewrite Hs.
  - destruct j as [|j]; simpl; [reflexivity|]. rewrite (IH l j) by lia. rewrite nth_error_map.
    destruct (nth_error (filter (fun i => nth i m false) (seq 0 (length m))) j); reflexivity.
  - rewrite (IH l j) by lia. rewrite nth_error_map.
    destruct (nth_error (filter (fun i => nth i m false) (seq 0 (length m))) j); reflexivity.
Qed.
Lemma count_filter_seq m : length (filter (fun b => b) m) = length (filter (fun i => nth i m false) (seq 0 (length m))).
Proof.
  induction m as [|b m IH]; simpl; [reflexivity|]. rewrite <- seq_shift.
  pose proof (filter_map_S b m (seq 0 (length m))) as Hs.
  destruct b; simpl; rewrite Hs, map_length; congruence.
Qed.
Lemma filter_rows df l r : wf_df df -> filter_by_list_of_selectors df l = Ok r ->
  rows r = map (row df) (filter (fun i => forallb (row_matchesb df i) l) (seq 0 (df_n df))) /\
  map fst (df_cols r) = (if df_n df =? 0 then [] else map fst (df_cols df)) /\ wf_df r.
Proof.
  intros Hwf H. unfold filter_by_list_of_selectors in H.
  destruct (contained_loop df (repeat true (df_n df)) l) as [m|] eqn:E; cbn [bind] in H; [|discriminate].
  inversion H; subst r. clear H.
  destruct (is_contained_bool l df m Hwf E) as [Hlen Hm].
  destruct (df_n df =? 0) eqn:E0.
  { apply Nat.eqb_eq in E0. rewrite E0 in *. destruct m; [|discriminate]. cbn. rewrite E0. split; [reflexivity|]. split; [reflexivity|]. intros a c []. }
  apply Nat.eqb_neq in E0. replace (df_getitem m df) with (df_mask m df) by (destruct m; [cbn in Hlen; congruence|reflexivity]). clear E0.
  assert (Hf : filter (fun i => forallb (row_matchesb df i) l) (seq 0 (df_n df))
               = filter (fun i => nth i m false) (seq 0 (length m))).
  { rewrite Hlen. apply filter_ext_in. intros i Hi. apply in_seq in Hi. symmetry. apply Hm. lia. }
  rewrite Hf. set (idx := filter (fun i => nth i m false) (seq 0 (length m))) in *.
  assert (Hn : length (filter (fun b : bool => b) m) = length idx) by apply count_filter_seq.
  split; [|split].
  - unfold rows. simpl. rewrite Hn.
    assert (Hrow : forall j, j < length idx -> row (df_mask m df) j = row df (nth j idx 0)).
    { intros j Hj. unfold row. simpl. rewrite map_map. apply map_ext_in. intros [a c] Hc. simpl.
      rewrite mask_nth by (rewrite Hlen; symmetry; exact (Hwf a c Hc)). fold idx.
      rewrite (nth_error_nth' idx 0 Hj). reflexivity. }
    clear -Hrow. 
    transitivity (map (fun j => row df (nth j idx 0)) (seq 0 (length idx))).
    + apply map_ext_in. intros j Hj. apply in_seq in Hj. apply Hrow. lia.
    + clear Hrow. induction idx as [|x idx IH]; simpl; [reflexivity|]. f_equal.
      rewrite <- IH, <- seq_shift, map_map. reflexivity.
  - simpl. rewrite map_map. reflexivity.
  - intros a c Hin. simpl in Hin. apply in_map_iff in Hin. destruct Hin as ([b d] & Ebd & Hin).
    inversion Ebd; subst. simpl. pose proof (Hwf _ _ Hin) as Hd.
    rewrite mask_filter by congruence. rewrite map_length. rewrite <- Hd in Hlen. clear -Hlen.
    revert d Hlen. induction m as [|b m IH]; intros [|x d] H; simpl in *; try discriminate; [reflexivity|].
    destruct b; simpl; rewrite IH by lia; reflexivity.
Qed.
Lemma forallb_incl {A} (f : A -> bool) l1 l2 : incl l1 l2 -> forallb f l2 = true -> forallb f l1 = true.
Proof. intros Hi H. rewrite forallb_forall in *. intros x Hx. apply H. now apply Hi. Qed.
Lemma filter_rows_order df l1 l2 r1 r2 : wf_df df -> incl l1 l2 -> incl l2 l1 ->
  filter_by_list_of_selectors df l1 = Ok r1 -> filter_by_list_of_selectors df l2 = Ok r2 -> r1 = r2.
Proof.
  intros Hwf H12 H21 E1 E2. unfold filter_by_list_of_selectors in *.
  destruct (contained_loop df (repeat true (df_n df)) l1) as [m1|] eqn:F1; cbn [bind] in E1; [|discriminate].
  destruct (contained_loop df (repeat true (df_n df)) l2) as [m2|] eqn:F2; cbn [bind] in E2; [|discriminate].
  destruct (is_contained_bool l1 df m1 Hwf F1) as [L1 M1]. destruct (is_contained_bool l2 df m2 Hwf F2) as [L2 M2].
  assert (m1 = m2).
  { apply (nth_ext m1 m2 false false); [congruence|]. intros i Hi. rewrite M1, M2 by lia.
    apply eq_true_iff_eq. split; now apply forallb_incl. }
  subst. congruence.
Qed.

(** * C12 *)
Lemma typed_alike_eq l s t : typed_alike l -> In s l -> In t l -> sel_eq s t = true -> s = t.
Proof. intros [H1 H2] Hs Ht E. apply sel_eq_same; auto. Qed.
Lemma in_pyset_In h l x L : typed_alike L -> incl l L -> In x L -> (in_pyset h x l = true <-> In x l).
Proof.
  intros HL Hl Hx. unfold in_pyset. rewrite existsb_exists. split.
  - intros (y & Hy & E). apply andb_true_iff in E. destruct E as [_ E].
    rewrite <- (typed_alike_eq L y x HL (Hl y Hy) Hx E). assumption.
  - intro H. exists x. split; [assumption|]. now rewrite Z.eqb_refl, sel_eq_refl.
Qed.
Lemma pyset_of_nodup h l L : typed_alike L -> forall acc, incl l L -> incl acc L -> NoDup l ->
  (forall x, In x l -> ~ In x acc) -> pyset_of h l acc = acc ++ l.
Proof.
  intro HL. induction l as [|x l IH]; intros acc Hl Hacc Hnd Hdis; simpl; [now rewrite app_nil_r|].
  inversion Hnd as [|? ? Hni Hnd']; subst.
  assert (Hx : In x L) by (apply Hl; now left).
  assert (E : in_pyset h x acc = false).
  { apply not_true_is_false. intro E. apply (in_pyset_In h acc x L HL Hacc Hx) in E. now apply (Hdis x (or_introl eq_refl)). }
  rewrite E, IH.
  - now rewrite <- app_assoc.
  - intros y Hy. apply Hl. now right.
  - intros y Hy. apply in_app_iff in Hy. destruct Hy as [Hy|[<-|[]]]; [now apply Hacc|assumption].
  - assumption.
  - intros y Hy Hin. apply in_app_iff in Hin. destruct Hin as [Hin|[<-|[]]]; [apply (Hdis y); [now right|assumption]|contradiction].
Qed.
Lemma sorted_NoDup l : StronglySorted slt l -> NoDup l.
Proof.
  induction 1 as [|x l Hs IH Hf]; constructor; [|assumption]. intro Hin. rewrite Forall_forall in Hf.
  specialize (Hf x Hin). unfold lt_ in Hf. rewrite (cmp_refl _ scmp scmp_sym) in Hf. discriminate.
Qed.
Lemma pyset_subset_incl h a b L : typed_alike L -> incl a L -> incl b L -> (pyset_subset h a b = true <-> incl a b).
Proof.
  intros HL Ha Hb. unfold pyset_subset. rewrite forallb_forall. split.
  - intros H x Hx. apply (in_pyset_In h b x L); auto.
  - intros H x Hx. apply (in_pyset_In h b x L); auto.
Qed.
Lemma is_refinement_spec h p q flag : homogeneous p -> homogeneous q -> sorted_strictly p -> sorted_strictly q ->
  typed_alike (p ++ q) ->
  (pattern_is_refinement h p q flag = true <-> incl p q /\ (incl q p -> flag = true)).
Proof.
  intros Hhp Hhq Hp Hq HL.
  apply (sorted_strictly_slt p Hhp) in Hp. apply (sorted_strictly_slt q Hhq) in Hq.
  apply sorted_NoDup in Hp, Hq.
  assert (Ip : incl p (p ++ q)) by (apply incl_appl, incl_refl).
  assert (Iq : incl q (p ++ q)) by (apply incl_appr, incl_refl).
  unfold pattern_is_refinement.
  rewrite (pyset_of_nodup h p (p ++ q) HL []) by (auto || (intros x []) || intros x _ []).
  rewrite (pyset_of_nodup h q (p ++ q) HL []) by (auto || (intros x []) || intros x _ []).
  cbn [app].
  destruct (Nat.ltb_spec (length q) (length p)) as [Hlt|Hge].
  - split; [discriminate|]. intros [Hi _]. apply NoDup_incl_length in Hi; [lia|assumption].
  - destruct (Nat.eqb_spec (length p) (length q)) as [El|Nl]; cbn [andb].
    + destruct (pyset_subset h p q) eqn:Es.
      * apply (pyset_subset_incl h p q _ HL Ip Iq) in Es. split; [intros ->; auto|].
        intros [_ Hf]. apply Hf. apply NoDup_length_incl; [assumption|lia|assumption].
      * split; [discriminate|]. intros [Hi _]. apply (pyset_subset_incl h p q _ HL Ip Iq) in Hi. congruence.
    + rewrite (pyset_subset_incl h p q _ HL Ip Iq). split; [|tauto]. intro Hi. split; [assumption|].
      intro Hi'. exfalso. apply Nl. apply Nat.le_antisymm; [lia|]. now apply NoDup_incl_length.
Qed.
Lemma coverage_anti df p q : incl p q -> coverage df q <= coverage df p.
Proof.
  intro H. unfold coverage. induction (seq 0 (df_n df)) as [|i l IH]; simpl; [lia|].
  destruct (forallb (row_matchesb df i) q) eqn:E.
  - rewrite (forallb_incl _ _ _ H E). simpl. lia.
  - destruct (forallb (row_matchesb df i) p); simpl; lia.
Qed.

(** * C13 *)
Lemma col_get_filter cols a b : col_get (filter (fun c : string * list value => negb (String.eqb a (fst c))) cols) b
  = if String.eqb a b then None else col_get cols b.
Proof.
  induction cols as [|[x c] cols IH]; simpl; [destruct (String.eqb a b); reflexivity|].
  destruct (String.eqb_spec a x) as [->|Hax]; simpl.
  - rewrite IH. destruct (String.eqb_spec x b) as [->|Hxb]; [reflexivity|].
    destruct (String.eqb_spec b x); [congruence|reflexivity].
  - destruct (String.eqb_spec b x) as [->|Hbx].
    + destruct (String.eqb_spec a x); [congruence|reflexivity].
    + apply IH.
Qed.
Lemma row_matchesb_drop df rest a i s : df_drop df a = Ok rest ->
  row_matchesb rest i s = negb (String.eqb a (s_attr s)) && row_matchesb df i s.
Proof.
  unfold df_drop. destruct (col_get (df_cols df) a); [|discriminate]. intro H. inversion H; subst.
  unfold row_matchesb, cell. simpl. rewrite col_get_filter.
  destruct (String.eqb a (s_attr s)); reflexivity.
Qed.
Lemma subgroup_filter_spec g df a b t : wf_df df -> subgroup_filter g df = Ok (a, b, t) ->
  length a = df_n df /\ length b = df_n df /\ length t = df_n df /\
  forall i, i < df_n df ->
    (nth i t false = true <-> row_matches df i (g_target g)) /\
    (let covered := forall s, In s (g_desc g) -> s_attr s <> s_attr (g_target g) /\ row_matches df i s in
     (nth i a false = true <-> covered /\ row_matches df i (g_target g)) /\
     (nth i b false = true <-> covered /\ ~ row_matches df i (g_target g))).
Proof.
  intros Hwf H. unfold subgroup_filter in H.
  destruct (df_drop df (s_attr (g_target g))) as [rest|] eqn:Er; cbn [bind] in H; [|discriminate].
  unfold df_col in H. destruct (col_get (df_cols df) (s_attr (g_target g))) as [tc|] eqn:Et; cbn [bind] in H; [|discriminate].
  destruct (is_contained (g_desc g) rest) as [d|] eqn:Ed; cbn [bind] in H; [|discriminate].
  destruct (op_evaluate_series (s_op (g_target g)) tc (s_val (g_target g))) as [tm|] eqn:Etm; cbn [bind] in H; [|discriminate].
  inversion H; subst. clear H.
  assert (Hrest : wf_df rest /\ df_n rest = df_n df).
  { unfold df_drop in Er. rewrite Et in Er. inversion Er; subst. split; [|reflexivity].
    intros x c Hin. simpl in *. apply filter_In in Hin. apply (Hwf x). tauto. }
  destruct Hrest as [Hwr Hnr].
  destruct (is_contained_bool _ _ _ Hwr Ed) as [Ld Md]. rewrite Hnr in *.
  destruct (series_row df (g_target g) tc t Hwf Et Etm) as [Lt Mt].
  split; [rewrite series_and_length; congruence|].
  split; [rewrite series_and_length; rewrite ?map_length; congruence|].
  split; [assumption|]. intros i Hi. split; [rewrite (Mt i Hi); apply row_matchesb_spec|].
  cbv zeta.
  assert (Hcov : forallb (row_matchesb rest i) (g_desc g) = true <->
                 (forall s, In s (g_desc g) -> s_attr s <> s_attr (g_target g) /\ row_matches df i s)).
  { rewrite forallb_forall. split; intros Hs s Hin; specialize (Hs s Hin).
    - rewrite (row_matchesb_drop df rest _ i s Er) in Hs. apply andb_true_iff in Hs. destruct Hs as [H1 H2].
      apply negb_true_iff, String.eqb_neq in H1. split; [congruence|now apply row_matchesb_spec].
    - rewrite (row_matchesb_drop df rest _ i s Er). destruct Hs as [H1 H2]. apply andb_true_iff. split.
      + apply negb_true_iff, String.eqb_neq. congruence.
      + now apply row_matchesb_spec. }
  rewrite !nth_series_and by (rewrite ?map_length; congruence).
  replace (nth i (map negb t) false) with (negb (nth i t false)).
  2:{ rewrite <- (map_nth negb t false i). apply nth_indep. rewrite map_length. lia. }
  rewrite (Md i Hi), (Mt i Hi), <- Hcov, <- (row_matchesb_spec df i (g_target g)), !andb_true_iff, negb_true_iff.
  split; [tauto|]. destruct (row_matchesb df i (g_target g)); intuition congruence.
Qed.
Lemma subgroup_filter_target_in_desc g df i l1 s l2 : wf_df df -> i < df_n df ->
  has_column df (s_attr (g_target g)) -> g_desc g = l1 ++ s :: l2 -> s_attr s = s_attr (g_target g) ->
  (forall t, In t l1 -> s_attr t <> s_attr (g_target g) /\ evaluable df t /\ row_matches df i t) ->
  subgroup_filter g df = Err KeyError.
Proof.
  intros Hwf Hi (c & Hc) Hd Hs Hl1. unfold subgroup_filter.
  destruct (df_drop df (s_attr (g_target g))) as [rest|] eqn:Er; [|unfold df_drop in Er; rewrite Hc in Er; discriminate].
  cbn [bind]. unfold df_col at 1. rewrite Hc. cbn [bind]. rewrite Hd.
  assert (Hr : rest = DF (df_n df) (filter (fun c => negb (String.eqb (s_attr (g_target g)) (fst c))) (df_cols df))).
  { unfold df_drop in Er. rewrite Hc in Er. congruence. }
  rewrite (is_contained_keyerror rest l1 s l2 i); [reflexivity| | | |].
  - rewrite Hr. intros x d Hin. simpl in *. apply filter_In in Hin. apply (Hwf x). tauto.
  - rewrite Hr. exact Hi.
  - intros t Ht. destruct (Hl1 t Ht) as (Hne & (d & Hd1 & Hd2) & Hrow).
    assert (En : String.eqb (s_attr (g_target g)) (s_attr t) = false) by (apply String.eqb_neq; congruence).
    split.
    + exists d. split; [|assumption]. rewrite Hr. simpl. rewrite col_get_filter, En. assumption.
    + apply row_matchesb_spec. rewrite (row_matchesb_drop df rest _ i t Er), En. now apply row_matchesb_spec.
  - intros (d & Hd1). rewrite Hr in Hd1. simpl in Hd1. rewrite col_get_filter, Hs, String.eqb_refl in Hd1. discriminate.
Qed.
(** Counts along refinement: tp, fp of a refinement are not larger. *)
Lemma count_true_mono a b : length a = length b -> (forall i, i < length a -> nth i a false = true -> nth i b false = true) ->
  count_true a <= count_true b.
Proof.
  unfold count_true. revert b. induction a as [|x a IH]; intros [|y b] Hl H; simpl in *; try discriminate; [lia|].
  assert (length (filter (fun b0 : bool => b0) a) <= length (filter (fun b0 : bool => b0) b)).
  { apply IH; [lia|]. intros i Hi. apply (H (S i)). lia. }
  pose proof (H 0 ltac:(lia)) as Hhd. simpl in Hhd. destruct x, y; simpl; try lia.
Qed.
Lemma refinement_counts g k df a b t a' b' t' : wf_df df -> incl (g_desc g) (g_desc k) -> g_target g = g_target k ->
  subgroup_filter g df = Ok (a, b, t) -> subgroup_filter k df = Ok (a', b', t') ->
  count_true a' <= count_true a /\ count_true b' <= count_true b /\ t' = t.
Proof.
  intros Hwf Hi Ht E E'.
  destruct (subgroup_filter_spec _ _ _ _ _ Hwf E) as (La & Lb & Lt & H).
  destruct (subgroup_filter_spec _ _ _ _ _ Hwf E') as (La' & Lb' & Lt' & H').
  cbv zeta in *. rewrite <- Ht in *.
  split; [|split].
  - apply count_true_mono; [congruence|]. intros i Hlt Hn. rewrite La' in Hlt.
    destruct (H i Hlt) as (_ & H1 & _). destruct (H' i Hlt) as (_ & H1' & _).
    apply H1. apply H1' in Hn. destruct Hn as [Hc Hm]. split; [intros s Hs; apply Hc; now apply Hi|assumption].
  - apply count_true_mono; [congruence|]. intros i Hlt Hn. rewrite Lb' in Hlt.
    destruct (H i Hlt) as (_ & _ & H1). destruct (H' i Hlt) as (_ & _ & H1').
    apply H1. apply H1' in Hn. destruct Hn as [Hc Hm]. split; [intros s Hs; apply Hc; now apply Hi|assumption].
  - apply (nth_ext t' t false false); [congruence|]. intros i Hlt. rewrite Lt' in Hlt.
    destruct (H i Hlt) as (H1 & _). destruct (H' i Hlt) as (H1' & _). apply eq_true_iff_eq. now rewrite H1, H1'.
Qed.
