(** Proofs about the subgroup-list learners. *)
From Verif Require Import ListSpec SubgroupListProofs VerticalProofs.
From Coq Require Import QArith.
Open Scope list_scope.
Open Scope nat_scope.

Lemma count_bits : forall b, bits_count b = length (filter (bit b) (seq 0 (length b))).
Proof.
  intros b. unfold bits_count. assert (H : forall b s, length (filter (fun x => x) b) = length (filter (fun i => bit b (i - s)) (seq s (length b)))).
  { clear b. induction b as [|x b IH]; intros s; cbn [filter length seq]; auto. replace (bit (x :: b) (s - s)) with x by (unfold bit; now rewrite Nat.sub_diag).
    assert (E : filter (fun i => bit (x :: b) (i - s)) (seq (S s) (length b)) = filter (fun i => bit b (i - S s)) (seq (S s) (length b))).
    { apply filter_ext_in. intros i Hi. apply in_seq in Hi. unfold bit. replace (i - s) with (S (i - S s)) by lia. reflexivity. }
    rewrite E. destruct x; cbn [length]; rewrite (IH (S s)); reflexivity. }
  rewrite (H b 0). f_equal. apply filter_ext. intros i. now rewrite Nat.sub_0_r.
Qed.
Lemma bit_and : forall a b i, bit (bits_and a b) i = bit a i && bit b i.
Proof. intros. unfold bit. now rewrite nth_bits_and. Qed.
Lemma forallb_map : forall {A B} (f : A -> B) p l, forallb p (map f l) = forallb (fun x => p (f x)) l.
Proof. induction l as [|x l IH]; cbn; auto. now rewrite IH. Qed.
Lemma counter_sum_rows : forall bits f s, counter_sum bits (map f (seq s (length bits))) = list_sum (map f (filter (fun i => bit bits (i - s)) (seq s (length bits)))).
Proof.
  induction bits as [|b bits IH]; intros f s; auto. cbn [length seq map counter_sum filter]. replace (bit (b :: bits) (s - s)) with b by (unfold bit; now rewrite Nat.sub_diag).
  assert (E : filter (fun i => bit (b :: bits) (i - s)) (seq (S s) (length bits)) = filter (fun i => bit bits (i - S s)) (seq (S s) (length bits))).
  { apply filter_ext_in. intros i Hi. apply in_seq in Hi. unfold bit. replace (i - s) with (S (i - S s)) by lia. reflexivity. }
  rewrite E, IH. destruct b; cbn [map]; unfold list_sum; cbn [fold_right]; lia.
Qed.
Lemma counter_add_rows : forall bits f s, counter_add bits (map f (seq s (length bits))) = map (fun i => if bit bits (i - s) then S (f i) else f i) (seq s (length bits)).
Proof.
  induction bits as [|b bits IH]; intros f s; auto. cbn [length seq map counter_add]. f_equal; [unfold bit; now rewrite Nat.sub_diag|].
  rewrite IH. apply map_ext_in. intros i Hi. apply in_seq in Hi. unfold bit. replace (i - s) with (S (i - S s)) by lia. reflexivity.
Qed.
Lemma existsb_count : forall b, (bits_count b =? 0) = negb (existsb (bit b) (seq 0 (length b))).
Proof.
  intros b. rewrite count_bits. generalize (seq 0 (length b)) as l. induction l as [|i l IH]; cbn [filter existsb]; auto. destruct (bit b i); cbn [length orb]; auto.
Qed.
Lemma repeat_map : forall {A} (x : A) n s, repeat x n = map (fun _ => x) (seq s n).
Proof. induction n as [|n IH]; intros s; cbn; auto. now rewrite (IH (S s)). Qed.

Section Run.
  Context {G : Type} (c : list_config G) (df : dataframe).
  Variables (tgt : list bool) (xs : list candidate3).
  Notation n := (df_n df).
  Notation rows := (seq 0 (df_n df)).
  Hypothesis (Ht : length tgt = n).
  Definition sized (x : candidate3) : Prop := length (c_pos x) = n /\ length (c_neg x) = n.
  Hypothesis (Hx : Forall sized xs).
  Definition SLS (st : list candidate3) : sglist :=
    SL (remaining tgt (map c_pos st)) (remaining (map negb tgt) (map c_neg st)) (bits_count tgt, n) (map c_group st)
       (positional tgt (map c_pos st)) (positional (map negb tgt) (map c_neg st)) (map c_pos st) (map c_neg st).
  Lemma sized_pos : forall st, Forall sized st -> Forall (fun o => length o = n) (map c_pos st).
  Proof. intros st F. induction F as [|x st S F IH]; cbn; constructor; auto. apply S. Qed.
  Lemma sized_neg : forall st, Forall sized st -> Forall (fun o => length o = n) (map c_neg st).
  Proof. intros st F. induction F as [|x st S F IH]; cbn; constructor; auto. apply S. Qed.
  Lemma count_free_pos : forall st, Forall sized st -> bits_count (remaining tgt (map c_pos st)) = length (filter (free_pos tgt st) rows).
  Proof.
    intros st F. assert (F1 := sized_pos st F). rewrite count_bits. rewrite (remaining_length _ _ n) by auto. f_equal. apply filter_ext. intros i.
    rewrite bit_remaining by now rewrite Ht. unfold free_pos. now rewrite forallb_map.
  Qed.
  Lemma count_free_neg : forall st, Forall sized st -> bits_count (remaining (map negb tgt) (map c_neg st)) = length (filter (free_neg tgt st) rows).
  Proof.
    intros st F. assert (F1 := sized_neg st F). rewrite count_bits. rewrite (remaining_length _ _ n) by (rewrite ?map_length; auto). f_equal. apply filter_ext_in. intros i Hi.
    apply in_seq in Hi. rewrite bit_remaining by now rewrite map_length, Ht. unfold free_neg. rewrite forallb_map, nth_negb by lia. reflexivity.
  Qed.
  Lemma count_own_pos : forall st x, Forall sized st -> sized x ->
    bits_count (bits_and (c_pos x) (remaining tgt (map c_pos st))) = length (filter (fun i => free_pos tgt st i && bit (c_pos x) i) rows).
  Proof.
    intros st x F [S1 S2]. assert (F1 := sized_pos st F). rewrite count_bits. rewrite bits_and_length by (rewrite (remaining_length _ _ n) by auto; auto).
    rewrite S1. f_equal. apply filter_ext. intros i. rewrite bit_and, bit_remaining by now rewrite Ht. unfold free_pos. rewrite forallb_map. apply andb_comm.
  Qed.
  Lemma count_own_neg : forall st x, Forall sized st -> sized x ->
    bits_count (bits_and (c_neg x) (remaining (map negb tgt) (map c_neg st))) = length (filter (fun i => free_neg tgt st i && bit (c_neg x) i) rows).
  Proof.
    intros st x F [S1 S2]. assert (F1 := sized_neg st F). rewrite count_bits. rewrite bits_and_length by (rewrite (remaining_length _ _ n) by (rewrite ?map_length; auto); auto).
    rewrite S2. f_equal. apply filter_ext_in. intros i Hi. apply in_seq in Hi. rewrite bit_and, bit_remaining by now rewrite map_length, Ht. unfold free_neg.
    rewrite forallb_map, nth_negb by lia. apply andb_comm.
  Qed.
  Lemma add_SLS : forall st x, sized x -> sl_add (SLS st) (c_group x) (c_pos x) (c_neg x) = Ok (SLS (st ++ [x])).
  Proof.
    intros st x [S1 S2]. unfold sl_add, sl_number_of_instances. cbn [SLS sl_distribution snd]. rewrite S1, S2, Nat.eqb_refl. cbn [negb].
    unfold SLS. rewrite !map_app. cbn [map sl_default_pos sl_default_neg sl_subgroups sl_pos sl_neg sl_orig_pos sl_orig_neg].
    now rewrite !positional_app, !remaining_app, subgroup_copy_id.
  Qed.
  Lemma get_last : forall {A} (l : list A) (x : A) (f : sglist -> list A) s, f s = l ++ [x] -> sl_get f s (-1) = Ok x.
  Proof.
    intros A l x f s E. unfold sl_get, py_index. rewrite E, app_length. cbn [length]. replace (0 <=? -1)%Z with false by reflexivity.
    replace (0 <=? -1 + Z.of_nat (length l + 1))%Z with true by (symmetry; apply Z.leb_le; lia). replace (Z.to_nat (-1 + Z.of_nat (length l + 1))) with (length l) by lia.
    rewrite nth_error_app2, Nat.sub_diag by lia. reflexivity.
  Qed.
  Lemma delete_SLS : forall st x, Forall sized st -> sized x -> sl_delete_last (SLS (st ++ [x])) = Ok (SLS st).
  Proof.
    intros st x F [S1 S2]. assert (F1 := sized_pos st F). assert (F2 := sized_neg st F). unfold sl_delete_last, SLS. rewrite !map_app.
    cbn [map sl_pos sl_neg sl_default_pos sl_default_neg sl_distribution sl_subgroups sl_orig_pos sl_orig_neg].
    assert (L : (0 <? length (map c_group st ++ [c_group x])) = true) by (apply Nat.ltb_lt; rewrite app_length; cbn; lia). rewrite L.
    rewrite !positional_app, !last_elem_app. cbn [bind]. rewrite !removelast_last, !remaining_app.
    rewrite (undo (remaining tgt _) _ n); [|now apply remaining_length|auto].
    rewrite (undo (remaining (map negb tgt) _) _ n); [|apply remaining_length; rewrite ?map_length; auto|auto]. reflexivity.
  Qed.
  Lemma negatives_count : snd (bits_count tgt, n) - bits_count tgt = length (filter (fun i => negb (bit tgt i)) rows).
  Proof.
    cbn [snd]. assert (E := count_negb tgt). rewrite count_bits, map_length, Ht in E.
    assert (E' : filter (bit (map negb tgt)) rows = filter (fun i => negb (bit tgt i)) rows).
    { apply filter_ext_in. intros i Hi. apply in_seq in Hi. apply nth_negb. lia. }
    rewrite E' in E. lia.
  Qed.
  Lemma delta_spec : forall st x, Forall sized st -> sized x -> delta_data c (SLS st) x =
    Ok (SLS st, lc_data c (length (filter (bit tgt) rows)) (length (filter (fun i => negb (bit tgt i)) rows))
                 (default_rows df tgt st) (default_rows df tgt (st ++ [x])) (own_rows df tgt st x), fst (own_rows df tgt st x), snd (own_rows df tgt st x)).
  Proof.
    intros st x F S. assert (F' : Forall sized (st ++ [x])) by (apply Forall_app; split; auto). unfold delta_data. rewrite add_SLS by auto. cbn [bind].
    assert (P : sl_get sl_pos (SLS (st ++ [x])) (-1) = Ok (bits_and (c_pos x) (remaining tgt (map c_pos st)))).
    { apply (get_last (positional tgt (map c_pos st))). cbn [SLS sl_pos]. rewrite map_app. cbn [map]. apply positional_app. }
    assert (N : sl_get sl_neg (SLS (st ++ [x])) (-1) = Ok (bits_and (c_neg x) (remaining (map negb tgt) (map c_neg st)))).
    { apply (get_last (positional (map negb tgt) (map c_neg st))). cbn [SLS sl_neg]. rewrite map_app. cbn [map]. apply positional_app. }
    rewrite P, N. cbn [bind]. rewrite delete_SLS by auto. cbn [bind]. unfold sl_number_of_negatives, sl_number_of_positives. cbn [SLS sl_distribution fst sl_default_pos sl_default_neg].
    rewrite negatives_count, !count_free_pos, !count_free_neg, count_own_pos, count_own_neg by auto. rewrite (count_bits tgt), Ht. reflexivity.
  Qed.
  Definition pcount (st : list candidate3) : list nat := map (times_pos st) rows.
  Definition ncount (st : list candidate3) : list nat := map (times_neg st) rows.
  Lemma ratio_pos : forall st x, sized x -> positive_overlap (c_pos x) (pcount st) = overlap_pos df st x.
  Proof.
    intros st x [S1 S2]. unfold positive_overlap, overlap_pos. rewrite existsb_count, S1. destruct (existsb (bit (c_pos x)) rows); cbn [negb]; auto.
    unfold overlap_ratio, ratio, pcount. rewrite <- S1 at 2. rewrite counter_sum_rows, S1.
    replace (filter (fun i => bit (c_pos x) (i - 0)) rows) with (filter (bit (c_pos x)) rows) by (apply filter_ext; intros i; now rewrite Nat.sub_0_r). reflexivity.
  Qed.
  Lemma ratio_neg : forall st x, sized x -> negative_overlap (c_neg x) (ncount st) = overlap_neg df st x.
  Proof.
    intros st x [S1 S2]. unfold negative_overlap, overlap_neg. rewrite existsb_count, S2. destruct (existsb (bit (c_neg x)) rows); cbn [negb]; auto.
    unfold overlap_ratio, ratio, ncount. rewrite <- S2 at 2. rewrite counter_sum_rows, S2.
    replace (filter (fun i => bit (c_neg x) (i - 0)) rows) with (filter (bit (c_neg x)) rows) by (apply filter_ext; intros i; now rewrite Nat.sub_0_r). reflexivity.
  Qed.
  Lemma pcount_add : forall st x, sized x -> counter_add (c_pos x) (pcount st) = pcount (st ++ [x]).
  Proof.
    intros st x [S1 S2]. unfold pcount. rewrite <- S1, counter_add_rows. apply map_ext. intros i. rewrite Nat.sub_0_r. unfold times_pos. rewrite filter_app, app_length. cbn [filter].
    destruct (bit (c_pos x) i); cbn [length]; lia.
  Qed.
  Lemma ncount_add : forall st x, sized x -> counter_add (c_neg x) (ncount st) = ncount (st ++ [x]).
  Proof.
    intros st x [S1 S2]. unfold ncount. rewrite <- S2, counter_add_rows. apply map_ext. intros i. rewrite Nat.sub_0_r. unfold times_neg. rewrite filter_app, app_length. cbn [filter].
    destruct (bit (c_neg x) i); cbn [length]; lia.
  Qed.
  (** Evaluation of a candidate: the list is unchanged. *)
  Lemma evaluate_ok : forall st x l g adm, Forall sized st -> sized x -> evaluate c df (pcount st) (ncount st) (SLS st) x = Ok (l, g, adm) ->
    l = SLS st /\ gain_is c df tgt st x g /\ (adm = true <-> admissible c df tgt st x).
  Proof.
    intros st x l g adm F S. unfold evaluate. rewrite delta_spec by auto. cbn [bind]. unfold gain_is, admissible. destruct (own_rows df tgt st x) as [p q]. cbn [fst snd].
    rewrite ratio_pos, ratio_neg by auto. destruct (p + q =? 0) eqn:E.
    - intros H. injection H as <- <- <-. split; auto. split; auto. apply Nat.eqb_eq in E. destruct (lc_class c); [tauto|rewrite Nat.ltb_lt; tauto|].
      assert (E0 : (0 <? p) = false) by (apply Nat.ltb_ge; lia). rewrite E0. cbn [andb]. split; [discriminate|lia].
    - unfold sl_len. cbn [SLS sl_subgroups]. rewrite map_length. destruct (lc_model c df (length st) (g_desc (c_group x))) as [m|e]; cbn [bind]; [|discriminate].
      destruct (lc_class c); intros H; injection H as <- <- <-; (split; [auto|split; [eauto|]]); [tauto|apply Nat.ltb_lt|].
      rewrite !andb_true_iff, Nat.ltb_lt. tauto.
  Qed.
  Lemma evaluate_of : forall st x, Forall sized st -> sized x ->
    (forall g, gain_is c df tgt st x g -> exists adm, evaluate c df (pcount st) (ncount st) (SLS st) x = Ok (SLS st, g, adm)) /\
    ((exists m, lc_model c df (length st) (g_desc (c_group x)) = Ok m) -> exists g, gain_is c df tgt st x g).
  Proof.
    intros st x F S. unfold evaluate. rewrite delta_spec by auto. cbn [bind]. unfold gain_is. destruct (own_rows df tgt st x) as [p q]. cbn [fst snd].
    rewrite ratio_pos, ratio_neg by auto. destruct (p + q =? 0) eqn:E; [split; [intros g ->; eauto|eauto]|].
    unfold sl_len. cbn [SLS sl_subgroups]. rewrite map_length. split; [|intros (m & Em); eexists; exists m; split; [exact Em|reflexivity]].
    intros g (m & Em & ->). rewrite Em. cbn [bind]. destruct (lc_class c); eauto.
  Qed.

  (** * The candidates that remain *)
  Notation cand := (cand xs).
  Definition availableb (chosen : list nat) (a : nat) : bool :=
    (a <? length xs) && negb (existsb (Nat.eqb a) chosen) && forallb (fun b => negb (related c (c_group (cand b)) (c_group (cand a)))) chosen.
  Lemma availableb_iff : forall chosen a, availableb chosen a = true <-> available c xs chosen a.
  Proof.
    intros chosen a. unfold availableb, available. rewrite !andb_true_iff, Nat.ltb_lt, negb_true_iff, forallb_forall.
    assert (E : existsb (Nat.eqb a) chosen = false <-> ~ In a chosen).
    { rewrite <- not_true_iff_false, existsb_exists. split; intros N H; apply N; [exists a; split; auto; apply Nat.eqb_refl|destruct H as (b & I & Eb); apply Nat.eqb_eq in Eb; now subst]. }
    rewrite E. split; [intros [[A B] C]; repeat split; auto; intros b I; apply negb_true_iff; auto|intros (A & B & C); repeat split; auto; intros b I; apply negb_true_iff; auto].
  Qed.
  Definition alive (chosen : list nat) : list (option candidate3) :=
    map (fun a => if availableb chosen a then Some (cand a) else None) (seq 0 (length xs)).
  Lemma alive_nil : alive [] = map Some xs.
  Proof.
    unfold alive, availableb, ListSpec.cand. apply nth_ext with (d := None) (d' := None); [now rewrite !map_length, seq_length|]. intros a Ha. rewrite map_length, seq_length in Ha.
    rewrite nth_indep with (d' := (fun a => if (a <? length xs) && negb (existsb (Nat.eqb a) []) && true then Some (nth a xs (SG [] (Sel "" EQUAL (VStr "")), [], [])) else None) 0)
      by now rewrite map_length, seq_length.
    rewrite (map_nth (fun a => if (a <? length xs) && negb (existsb (Nat.eqb a) []) && true then Some (nth a xs (SG [] (Sel "" EQUAL (VStr "")), [], [])) else None)), seq_nth by auto.
    cbn [existsb negb]. rewrite Nat.add_0_l, andb_true_r. replace (a <? length xs) with true by (symmetry; now apply Nat.ltb_lt). cbn [andb].
    rewrite nth_indep with (d' := Some (SG [] (Sel "" EQUAL (VStr "")), @nil bool, @nil bool)) by now rewrite map_length. now rewrite map_nth.
  Qed.
  Lemma set_none_map : forall f k s m, set_none k (map f (seq s m)) = map (fun a => if a =? s + k then None else f a) (seq s m).
  Proof.
    intros f k s m. revert k s. induction m as [|m IH]; intros k s; [destruct k; reflexivity|]. cbn [seq map]. destruct k as [|k]; cbn [set_none].
    - rewrite Nat.add_0_r, Nat.eqb_refl. f_equal. apply map_ext_in. intros a Ha. apply in_seq in Ha. replace (a =? s) with false by (symmetry; apply Nat.eqb_neq; lia). reflexivity.
    - rewrite IH. replace (s =? s + S k) with false by (symmetry; apply Nat.eqb_neq; lia). f_equal. apply map_ext. intros a. now rewrite Nat.add_succ_comm.
  Qed.
  Lemma alive_step : forall chosen a, delete_related c (c_group (cand a)) (set_none a (alive chosen)) = alive (chosen ++ [a]).
  Proof.
    intros chosen a. unfold alive. rewrite set_none_map. unfold delete_related. rewrite map_map. apply map_ext. intros b. cbn [Nat.add].
    unfold availableb. rewrite existsb_app, forallb_app. cbn [existsb forallb]. rewrite orb_false_r, andb_true_r, negb_orb. destruct (b =? a) eqn:E; cbn [negb andb].
    - rewrite andb_false_r. rewrite andb_false_r. reflexivity.
    - rewrite andb_true_r. destruct (b <? length xs), (existsb (Nat.eqb b) chosen), (forallb (fun b0 => negb (related c (c_group (cand b0)) (c_group (cand b)))) chosen); cbn [negb andb]; auto.
      destruct (related c (c_group (cand a)) (c_group (cand b))); auto.
  Qed.
  Lemma cand_sized : forall a, a < length xs -> sized (cand a).
  Proof. intros a Ha. rewrite Forall_forall in Hx. apply Hx. apply nth_In. auto. Qed.

  (** * The best candidate *)
  Hypothesis (Irr : forall x, lc_gt c x x = false).
  Hypothesis (Tr : forall x y z, lc_gt c x y = true -> lc_gt c y z = true -> lc_gt c x z = true).
  Section Best.
    Variables (chosen : list nat) (st : list candidate3).
    Hypothesis Fs : Forall sized st.
    Definition good (a : nat) (g : G) : Prop := available c xs chosen a /\ admissible c df tgt st (cand a) /\ gain_is c df tgt st (cand a) g.
    Lemma best_loop_spec : forall m s best bg l' best', s + m <= length xs ->
      best_loop c df (pcount st) (ncount st) (map (fun a => if availableb chosen a then Some (cand a) else None) (seq s m)) s (SLS st) best bg = Ok (l', best') ->
      l' = SLS st /\ (forall a, s <= a < s + m -> available c xs chosen a -> exists g, gain_is c df tgt st (cand a) g) /\
      ((best' = best /\ forall a g, s <= a < s + m -> good a g -> lc_gt c g bg = false) \/
       exists i gi, best' = Some (i, cand i) /\ s <= i < s + m /\ good i gi /\
         lc_gt c gi bg = true /\
         (forall a g, s <= a < s + m -> good a g -> lc_gt c g gi = false) /\
         ((forall x y z, lc_gt c x z = true -> lc_gt c x y = true \/ lc_gt c y z = true) -> forall a g, s <= a < i -> good a g -> lc_gt c gi g = true)).
    Proof.
      induction m as [|m IH]; intros s best bg l' best' Hs H; cbn [seq map best_loop] in H.
      - injection H as <- <-. split; auto. split; [intros; lia|]. left. split; auto. intros; lia.
      - destruct (availableb chosen s) eqn:Ea.
        + destruct (evaluate c df (pcount st) (ncount st) (SLS st) (cand s)) as [[[l g] adm]|e] eqn:Ee; cbn [bind] in H; [|discriminate].
          destruct (evaluate_ok st (cand s) l g adm Fs (cand_sized s ltac:(lia)) Ee) as (-> & Hg & Ha). apply availableb_iff in Ea.
          assert (Uniq : forall g', gain_is c df tgt st (cand s) g' -> g' = g).
          { intros g' Hg'. destruct (evaluate_of st (cand s) Fs (cand_sized s ltac:(lia))) as [E1 _]. destruct (E1 g' Hg') as (adm' & E'). congruence. }
          destruct (lc_gt c g bg && adm) eqn:Eb.
          * apply andb_true_iff in Eb. destruct Eb as [Eg Eadm]. apply Ha in Eadm. destruct (IH (S s) _ _ _ _ ltac:(lia) H) as (-> & Ex & C). split; auto. split.
            { intros a Hr Av. destruct (Nat.eq_dec a s) as [->|Ne]; [eauto|apply Ex; auto; lia]. }
            right. destruct C as [[-> Hm]|(i & gi & -> & Hi & Gi & C)].
            { exists s, g. split; auto. split; [lia|]. split; [split; auto|]. split; auto. split; [|intros; lia].
              intros a g' Hr Hgood. destruct (Nat.eq_dec a s) as [->|Ne]; [|apply (Hm a); auto; lia].
              destruct Hgood as (_ & _ & Hg'). rewrite (Uniq g' Hg'). apply Irr. }
            exists i, gi. split; auto. split; [lia|]. split; auto. destruct C as (C1 & C2 & C3). split; [eapply Tr; eauto|]. split.
            { intros a g' Hr Hgood. destruct (Nat.eq_dec a s) as [->|Ne]; [|apply (C2 a); auto; lia]. destruct Hgood as (_ & _ & Hg'). rewrite (Uniq g' Hg').
              destruct (lc_gt c g gi) eqn:E; auto. rewrite <- (Irr g). symmetry. eapply Tr; eauto. }
            intros NT a g' Hr Hgood. destruct (Nat.eq_dec a s) as [->|Ne]; [|apply (C3 NT a); auto; lia]. destruct Hgood as (_ & _ & Hg'). rewrite (Uniq g' Hg'). auto.
          * destruct (IH (S s) _ _ _ _ ltac:(lia) H) as (-> & Ex & C). split; auto. split.
            { intros a Hr Av. destruct (Nat.eq_dec a s) as [->|Ne]; [eauto|apply Ex; auto; lia]. }
            assert (Here : forall g', good s g' -> lc_gt c g' bg = false).
            { intros g' (_ & A & Hg'). rewrite (Uniq g' Hg'). apply Ha in A. rewrite A, andb_true_r in Eb. auto. }
            destruct C as [[-> Hm]|(i & gi & -> & Hi & Gi & C)].
            { left. split; auto. intros a g' Hr Hgood. destruct (Nat.eq_dec a s) as [->|Ne]; auto. apply (Hm a); auto. lia. }
            right. exists i, gi. split; auto. split; [lia|]. split; auto. destruct C as (C1 & C2 & C3). split; auto. split.
            { intros a g' Hr Hgood. destruct (Nat.eq_dec a s) as [->|Ne]; [|apply (C2 a); auto; lia]. destruct (lc_gt c g' gi) eqn:E; auto.
              rewrite <- (Here g' Hgood). symmetry. eapply Tr; eauto. }
            intros NT a g' Hr Hgood. destruct (Nat.eq_dec a s) as [->|Ne]; [|apply (C3 NT a); auto; lia]. destruct (NT gi g' bg C1) as [X|X]; auto. rewrite (Here g' Hgood) in X. discriminate.
        + destruct (IH (S s) _ _ _ _ ltac:(lia) H) as (-> & Ex & C). split; auto.
          assert (Na : ~ available c xs chosen s) by (intros A; apply availableb_iff in A; congruence).
          split; [intros a Hr Av; destruct (Nat.eq_dec a s) as [->|Ne]; [tauto|apply Ex; auto; lia]|].
          destruct C as [[-> Hm]|(i & gi & -> & Hi & Gi & C)].
          { left. split; auto. intros a g Hr Hgood. apply (Hm a); auto. destruct (Nat.eq_dec a s) as [->|Ne]; [destruct Hgood; tauto|lia]. }
          right. exists i, gi. split; auto. split; [lia|]. split; auto. destruct C as (C1 & C2 & C3). split; auto. split.
          { intros a g Hr Hgood. apply (C2 a); auto. destruct (Nat.eq_dec a s) as [->|Ne]; [destruct Hgood; tauto|lia]. }
          intros NT a g Hr Hgood. apply (C3 NT a); auto. destruct (Nat.eq_dec a s) as [->|Ne]; [destruct Hgood; tauto|lia].
    Qed.
    Lemma best_loop_total : (forall a, a < length xs -> exists m, lc_model c df (length st) (g_desc (c_group (cand a))) = Ok m) ->
      forall m s best bg, s + m <= length xs -> exists r,
      best_loop c df (pcount st) (ncount st) (map (fun a => if availableb chosen a then Some (cand a) else None) (seq s m)) s (SLS st) best bg = Ok r.
    Proof.
      intros Hm. induction m as [|m IH]; intros s best bg Hs; cbn [seq map best_loop]; [eauto|]. destruct (availableb chosen s) eqn:Ea; [|apply IH; lia].
      destruct (evaluate_of st (cand s) Fs (cand_sized s ltac:(lia))) as [E1 E2]. destruct (E2 (Hm s ltac:(lia))) as (g & Hg). destruct (E1 g Hg) as (adm & Ee).
      rewrite Ee. cbn [bind]. destruct (lc_gt c g bg && adm); apply IH; lia.
    Qed.
  End Best.

  Lemma may_grow_spec : forall st, may_grow c (SLS st) = true <-> room c (length st).
  Proof. intros st. unfold may_grow, room, sl_len. cbn [SLS sl_subgroups]. rewrite map_length. destruct (lc_class c); [tauto| |]; apply Z.ltb_lt. Qed.
  Lemma cands_sized : forall r, Forall (fun a => a < length xs) r -> Forall sized (map cand r).
  Proof. intros r F. induction F; cbn [map]; constructor; auto. apply cand_sized. auto. Qed.
  (** One list. *)
  Lemma learn_spec : forall fuel prior ms l' cands', Forall (fun a => a < length xs) ms ->
    learn c df fuel (pcount (map cand ms)) (ncount (map cand ms)) (SLS (map cand ms)) (alive prior) = Ok (l', cands') ->
    exists more, l' = SLS (map cand (ms ++ more)) /\ cands' = alive (prior ++ more) /\ Forall (fun a => a < length xs) more /\
      (forall k a, nth_error more k = Some a -> room c (length ms + k) /\
        best_choice c df tgt xs (prior ++ firstn k more) (map cand (ms ++ firstn k more)) a /\
        (total_order (lc_gt c) -> first_choice c df tgt xs (prior ++ firstn k more) (map cand (ms ++ firstn k more)) a)) /\
      (room c (length (ms ++ more)) -> no_choice c df tgt xs (prior ++ more) (map cand (ms ++ more))).
  Proof.
    induction fuel as [|fuel IH]; intros prior ms l' cands' Fm H; cbn [learn] in H; [discriminate|].
    destruct (may_grow c (SLS (map cand ms))) eqn:Eg.
    - destruct (best_loop c df (pcount (map cand ms)) (ncount (map cand ms)) (alive prior) 0 (SLS (map cand ms)) None (lc_zero c)) as [[l1 best]|e] eqn:Eb; cbn [bind] in H; [|discriminate].
      unfold alive in Eb. destruct (best_loop_spec prior (map cand ms) (cands_sized ms Fm) (length xs) 0 None (lc_zero c) l1 best (le_n _) Eb) as (-> & Ex & C).
      destruct C as [[-> Hn]|(i & gi & -> & Hi & Gi & C1 & C2 & C3)].
      + injection H as <- <-. exists []. rewrite !app_nil_r. split; auto. split; auto. split; [constructor|]. split; [intros [|k] a E; discriminate|].
        intros _ b g A1 A2 A3. apply (Hn b); [split; [lia|apply A1]|split; auto].
      + rewrite add_SLS in H by (apply cand_sized; lia). cbn [bind] in H.
        replace (map cand ms ++ [cand i]) with (map cand (ms ++ [i])) in H by (rewrite map_app; reflexivity).
        rewrite pcount_add, ncount_add, alive_step in H by (apply cand_sized; lia).
        replace (map cand ms ++ [cand i]) with (map cand (ms ++ [i])) in H by (rewrite map_app; reflexivity).
        apply IH in H; [|apply Forall_app; split; auto; constructor; auto; lia]. destruct H as (more & -> & -> & Fmore & Hk & Hend). exists (i :: more).
        rewrite <- !app_assoc in Hend. rewrite <- !app_assoc. cbn [app] in Hend |- *. split; auto. split; auto. split; [constructor; auto; lia|]. split; auto.
        intros [|k] a E; cbn [nth_error firstn] in E |- *.
        * injection E as <-. rewrite !app_nil_r, Nat.add_0_r. apply may_grow_spec in Eg. rewrite map_length in Eg. split; auto. destruct Gi as (G1 & G2 & G3). split.
          { split; auto. split; auto. exists gi. split; auto. split; auto. intros b g' B1 B2 B3. apply (C2 b); [split; [lia|apply B1]|split; auto]. }
          { intros [_ NT] b g g' Hb B1 B2 B3 B4. destruct (evaluate_of (map cand ms) (cand i) (cands_sized ms Fm) (cand_sized i ltac:(lia))) as [E1 _].
            destruct (E1 g' B4) as (ad1 & X1). destruct (E1 gi G3) as (ad2 & X2). assert (g' = gi) by congruence. subst g'. apply (C3 NT b); [lia|]. split; auto. }
        * destruct (Hk k a E) as (R & B & F). rewrite app_length in R. cbn [length] in R. rewrite <- !app_assoc in B, F. cbn [app] in B, F.
          replace (length ms + 1 + k) with (length ms + S k) in R by lia. auto.
    - injection H as <- <-. exists []. rewrite !app_nil_r. split; auto. split; auto. split; [constructor|]. split; [intros [|k] a E; discriminate|].
      intros R. exfalso. apply not_true_iff_false in Eg. apply Eg. apply may_grow_spec. now rewrite map_length.
  Qed.
  (** The loop ends: each iteration uses up a candidate. *)
  Definition left (prior : list nat) : nat := length (filter (availableb prior) (seq 0 (length xs))).
  Lemma left_step : forall prior a, available c xs prior a -> left (prior ++ [a]) < left prior.
  Proof.
    intros prior a Av. unfold left.
    assert (H : forall l, In a l -> NoDup l -> length (filter (availableb (prior ++ [a])) l) < length (filter (availableb prior) l)).
    { assert (Sub : forall b, availableb (prior ++ [a]) b = true -> availableb prior b = true).
      { intros b Hb. apply availableb_iff in Hb. apply availableb_iff. destruct Hb as (A & B & C). split; auto. split; [intros I; apply B, in_or_app; auto|intros d I; apply C, in_or_app; auto]. }
      assert (Le : forall l, length (filter (availableb (prior ++ [a])) l) <= length (filter (availableb prior) l)).
      { induction l as [|b l IH]; cbn [filter]; auto. destruct (availableb (prior ++ [a]) b) eqn:E1; [rewrite (Sub b E1); cbn [length]; lia|]. destruct (availableb prior b); cbn [length]; lia. }
      assert (Na : availableb (prior ++ [a]) a = false).
      { apply not_true_iff_false. intros E. apply availableb_iff in E. destruct E as (_ & N & _). apply N, in_or_app. right. left. auto. }
      induction l as [|b l IH]; intros I N; [destruct I|]. inversion N as [|? ? N1 N2]; subst. cbn [filter]. destruct I as [->|I].
      - rewrite Na. apply availableb_iff in Av. rewrite Av. cbn [length]. specialize (Le l). lia.
      - specialize (IH I N2). destruct (availableb (prior ++ [a]) b) eqn:E1; [rewrite (Sub b E1); cbn [length]; lia|]. destruct (availableb prior b); cbn [length]; lia. }
    apply H; [apply in_seq; destruct Av; lia|apply seq_NoDup].
  Qed.
  Lemma left_le : forall prior, left prior <= length xs.
  Proof. intros prior. unfold left. rewrite <- (seq_length (length xs) 0) at 2. generalize (seq 0 (length xs)) as l. induction l as [|a l IH]; cbn [filter]; auto. destruct (availableb prior a); cbn [length]; lia. Qed.
  Lemma learn_total : (forall k a, a < length xs -> exists m, lc_model c df k (g_desc (c_group (cand a))) = Ok m) ->
    forall fuel prior ms, Forall (fun a => a < length xs) ms -> left prior < fuel ->
    exists r, learn c df fuel (pcount (map cand ms)) (ncount (map cand ms)) (SLS (map cand ms)) (alive prior) = Ok r.
  Proof.
    intros Hm. induction fuel as [|fuel IH]; intros prior ms Fm Hf; [lia|]. cbn [learn]. destruct (may_grow c (SLS (map cand ms))); [|eauto].
    destruct (best_loop_total prior (map cand ms) (cands_sized ms Fm) (Hm _) (length xs) 0 None (lc_zero c) (le_n _)) as ([l1 best] & Eb).
    unfold alive at 1. rewrite Eb. cbn [bind].
    destruct (best_loop_spec prior (map cand ms) (cands_sized ms Fm) (length xs) 0 None (lc_zero c) l1 best (le_n _) Eb) as (-> & Ex & C).
    destruct C as [[-> Hn]|(i & gi & -> & Hi & Gi & _)]; [eauto|]. rewrite add_SLS by (apply cand_sized; lia). cbn [bind].
    rewrite pcount_add, ncount_add, alive_step by (apply cand_sized; lia). replace (map cand ms ++ [cand i]) with (map cand (ms ++ [i])) by (rewrite map_app; reflexivity).
    apply IH; [apply Forall_app; split; auto; constructor; auto; lia|]. assert (L := left_step prior i (proj1 Gi)). lia.
  Qed.
  (** All the lists. *)
  Lemma learn_lists_spec : forall k prior out,
    learn_lists c df n (repeat (SLS []) k) (alive prior) = Ok out ->
    exists runs, length runs = k /\ out = map (fun r => SLS (map cand r)) runs /\ Forall (Forall (fun a => a < length xs)) runs /\
      forall j r, nth_error runs j = Some r -> list_run c df tgt xs (prior ++ concat (firstn j runs)) r /\
        (total_order (lc_gt c) -> forall k a, nth_error r k = Some a -> first_choice c df tgt xs (prior ++ concat (firstn j runs) ++ firstn k r) (map cand (firstn k r)) a).
  Proof.
    induction k as [|k IH]; intros prior out H; cbn [repeat learn_lists] in H.
    - injection H as <-. exists []. split; auto. split; auto. split; [constructor|]. intros [|j] r E; discriminate.
    - destruct (learn c df (S (length (alive prior))) (repeat 0 n) (repeat 0 n) (SLS []) (alive prior)) as [[l1 cs1]|e] eqn:El; cbn [bind fst snd] in H; [|discriminate].
      rewrite (repeat_map 0 n 0) in El. apply (learn_spec _ prior [] l1 cs1 ltac:(constructor)) in El. cbn [app length Nat.add] in El. destruct El as (r & -> & -> & Fr & Hk & Hend).
      destruct (learn_lists c df n (repeat (SLS []) k) (alive (prior ++ r))) as [ms|e] eqn:Em; cbn [bind] in H; [|discriminate]. injection H as <-.
      destruct (IH _ _ Em) as (runs & L & -> & Fruns & Hruns). exists (r :: runs). cbn [length map]. split; [lia|]. split; auto. split; [constructor; auto|].
      intros [|j] r' E; cbn [nth_error firstn concat] in E |- *.
      + injection E as <-. rewrite app_nil_r. cbn [app]. split; [split; auto; intros k' a Ek; destruct (Hk k' a Ek) as (A & B & _); auto|]. intros T k' a Ek. apply Hk; auto.
      + rewrite !app_assoc. rewrite <- !app_assoc. destruct (Hruns j r' E) as [A B]. rewrite <- !app_assoc in A. split; auto. intros T k' a Ek. specialize (B T k' a Ek). rewrite <- !app_assoc in B. rewrite <- ?app_assoc. auto.
  Qed.
  Lemma learn_lists_total : (forall k a, a < length xs -> exists m, lc_model c df k (g_desc (c_group (cand a))) = Ok m) ->
    forall k prior, exists out, learn_lists c df n (repeat (SLS []) k) (alive prior) = Ok out.
  Proof.
    intros Hm. induction k as [|k IH]; intros prior; cbn [repeat learn_lists]; [eauto|].
    destruct (learn_total Hm (S (length (alive prior))) prior [] ltac:(constructor)) as ([l1 cs1] & El).
    { unfold alive. rewrite map_length, seq_length. assert (L := left_le prior). lia. }
    rewrite (repeat_map 0 n 0). cbn [map] in El. change (map (fun _ : nat => 0) rows) with (pcount []) at 1. change (map (fun _ : nat => 0) rows) with (ncount []).
    rewrite El. cbn [bind fst snd]. apply (learn_spec _ prior [] l1 cs1 ltac:(constructor)) in El. destruct El as (r & -> & -> & _). destruct (IH (prior ++ r)) as (out & ->). cbn [bind]. eauto.
  Qed.
  (** Errors come from the model term only. *)
  Lemma best_loop_err : forall chosen ms e, Forall (fun a => a < length xs) ms -> forall m s best bg, s + m <= length xs ->
    best_loop c df (pcount (map cand ms)) (ncount (map cand ms)) (map (fun a => if availableb chosen a then Some (cand a) else None) (seq s m)) s (SLS (map cand ms)) best bg = Err e ->
    exists a, a < length xs /\ lc_model c df (length ms) (g_desc (c_group (cand a))) = Err e.
  Proof.
    intros chosen ms e Fm. assert (Fs := cands_sized ms Fm). induction m as [|m IH]; intros s best bg Hs H; cbn [seq map best_loop] in H; [discriminate|].
    destruct (availableb chosen s); [|eapply IH; eauto; lia]. destruct (evaluate_of (map cand ms) (cand s) Fs (cand_sized s ltac:(lia))) as [E1 E2]. rewrite map_length in E2.
    destruct (lc_model c df (length ms) (g_desc (c_group (cand s)))) as [mo|e'] eqn:Em.
    - destruct (E2 (ex_intro _ mo eq_refl)) as (g & Hg). destruct (E1 g Hg) as (adm & Ee). rewrite Ee in H. cbn [bind] in H. destruct (lc_gt c g bg && adm); eapply IH; try eassumption; lia.
    - unfold evaluate in H. rewrite delta_spec in H by (auto; apply cand_sized; lia). cbn [bind] in H.
      destruct (fst (own_rows df tgt (map cand ms) (cand s)) + snd (own_rows df tgt (map cand ms) (cand s)) =? 0).
      + cbn [bind] in H. destruct (lc_gt c (lc_zero c) bg && _) in H; eapply IH; try eassumption; lia.
      + unfold sl_len in H. cbn [SLS sl_subgroups] in H. rewrite !map_length, Em in H. cbn [bind] in H. injection H as ->. exists s. split; auto. lia.
  Qed.
  Lemma learn_err : forall fuel prior ms e, Forall (fun a => a < length xs) ms -> left prior < fuel ->
    learn c df fuel (pcount (map cand ms)) (ncount (map cand ms)) (SLS (map cand ms)) (alive prior) = Err e ->
    exists k a, a < length xs /\ lc_model c df k (g_desc (c_group (cand a))) = Err e.
  Proof.
    induction fuel as [|fuel IH]; intros prior ms e Fm Hf H; [lia|]. cbn [learn] in H. destruct (may_grow c (SLS (map cand ms))); [|discriminate].
    destruct (best_loop c df (pcount (map cand ms)) (ncount (map cand ms)) (alive prior) 0 (SLS (map cand ms)) None (lc_zero c)) as [[l1 best]|e'] eqn:Eb; cbn [bind] in H.
    - unfold alive in Eb. destruct (best_loop_spec prior (map cand ms) (cands_sized ms Fm) (length xs) 0 None (lc_zero c) l1 best (le_n _) Eb) as (-> & Ex & C).
      destruct C as [[-> Hn]|(i & gi & -> & Hi & Gi & _)]; [discriminate|]. rewrite add_SLS in H by (apply cand_sized; lia). cbn [bind] in H.
      rewrite pcount_add, ncount_add, alive_step in H by (apply cand_sized; lia). replace (map cand ms ++ [cand i]) with (map cand (ms ++ [i])) in H by (rewrite map_app; reflexivity).
      apply IH in H; auto; [apply Forall_app; split; auto; constructor; auto; lia|]. assert (L := left_step prior i (proj1 Gi)). lia.
    - injection H as ->. destruct (best_loop_err prior ms e Fm (length xs) 0 _ _ (le_n _) Eb) as (a & A & B). eauto.
  Qed.
  Lemma learn_lists_err : forall e k prior, learn_lists c df n (repeat (SLS []) k) (alive prior) = Err e ->
    exists k a, a < length xs /\ lc_model c df k (g_desc (c_group (cand a))) = Err e.
  Proof.
    induction k as [|k IH]; intros prior H; cbn [repeat learn_lists] in H; [discriminate|].
    rewrite (repeat_map 0 n 0) in H. change (map (fun _ : nat => 0) rows) with (pcount (map cand [])) in H at 1. change (map (fun _ : nat => 0) rows) with (ncount (map cand [])) in H.
    change (@nil candidate3) with (map cand []) in H at 1.
    destruct (learn c df (S (length (alive prior))) (pcount (map cand [])) (ncount (map cand [])) (SLS (map cand [])) (alive prior)) as [[l1 cs1]|e'] eqn:El; cbn [bind fst snd] in H.
    - apply (learn_spec _ prior [] l1 cs1 ltac:(constructor)) in El. destruct El as (r & -> & -> & _).
      destruct (learn_lists c df n (repeat (SLS []) k) (alive (prior ++ r))) as [ms|e''] eqn:Em; cbn [bind] in H; [discriminate|]. injection H as ->. eauto.
    - injection H as ->. eapply (learn_err _ prior [] e); [constructor| |exact El]. unfold alive. rewrite map_length, seq_length. assert (L := left_le prior). lia.
  Qed.
  Lemma SLS_history : forall st, Forall sized st -> SLS st = sl_history (SLS []) (map (fun x => SLAdd (c_group x) (c_pos x) (c_neg x)) st).
  Proof.
    intros st F. induction st as [|x st IH] using rev_ind; [reflexivity|]. apply Forall_app in F. destruct F as [F1 F2]. inversion F2 as [|? ? S1 _]; subst.
    rewrite map_app. unfold sl_history in *. rewrite fold_left_app, <- IH by auto. cbn [map fold_left sl_step]. unfold sl_step. now rewrite add_SLS.
  Qed.
End Run.
