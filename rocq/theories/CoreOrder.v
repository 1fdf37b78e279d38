(** The order on selectors (proofs for C04) and pattern operations (C06, C07). *)
From Verif Require Import Base OrderFacts CoreModel CoreSpec.
Open Scope list_scope.
Open Scope nat_scope.

(** * String order *)
Lemma string_compare_trans a b c :
  String.compare a b <> Gt -> String.compare b c <> Gt -> String.compare a c <> Gt.
Proof.
  revert b c. induction a as [|x a IH]; intros [|y b] [|z c]; simpl; try congruence.
  unfold Ascii.compare.
  destruct (N.compare_spec (N_of_ascii x) (N_of_ascii y)) as [E1|E1|E1];
  destruct (N.compare_spec (N_of_ascii y) (N_of_ascii z)) as [E2|E2|E2];
  destruct (N.compare_spec (N_of_ascii x) (N_of_ascii z)) as [E3|E3|E3]; intros H1 H2; try congruence; try lia.
  now apply (IH b c).
Qed.
Lemma string_compare_refl a : String.compare a a = Eq.
Proof. apply (cmp_refl _ String.compare). intros; apply String.compare_antisym. Qed.
Lemma string_eqb_compare a b : String.eqb a b = match String.compare a b with Eq => true | _ => false end.
Proof.
  destruct (String.eqb_spec a b) as [->|H].
  - now rewrite string_compare_refl.
  - destruct (String.compare a b) eqn:E; try reflexivity. apply String.compare_eq_iff in E. contradiction.
Qed.
Lemma string_ltb_compare a b : String.ltb a b = match String.compare a b with Lt => true | _ => false end.
Proof. reflexivity. Qed.
Lemma string_leb_compare a b : String.leb a b = match String.compare a b with Gt => false | _ => true end.
Proof. reflexivity. Qed.

(** * Values *)
Lemma p10_pos e : (0 < p10 e)%Z.
Proof. unfold p10. apply Z.pow_pos_nonneg; lia. Qed.

Definition ncmp (x y : Z * nat) : comparison := (fst x * p10 (snd y) ?= fst y * p10 (snd x))%Z.
Lemma ncmp_sym x y : ncmp y x = CompOpp (ncmp x y).
Proof. unfold ncmp. apply Z.compare_antisym. Qed.
Lemma ncmp_trans x y z : ncmp x y <> Gt -> ncmp y z <> Gt -> ncmp x z <> Gt.
Proof.
  unfold ncmp. destruct x as [a i], y as [b j], z as [c k]; simpl.
  intros H1 H2. change (a * p10 j <= b * p10 i)%Z in H1. change (b * p10 k <= c * p10 j)%Z in H2.
  change (a * p10 k <= c * p10 i)%Z.
  pose proof (p10_pos i). pose proof (p10_pos j). pose proof (p10_pos k). nia.
Qed.

Definition vcmp (v w : value) : comparison :=
  match v, w with
  | VStr a, VStr b => String.compare a b
  | VStr _, _ => Gt
  | _, VStr _ => Lt
  | _, _ => match num_of v, num_of w with Some x, Some y => ncmp x y | _, _ => Eq end
  end.
Lemma vcmp_sym v w : vcmp w v = CompOpp (vcmp v w).
Proof.
  destruct v, w; simpl; try reflexivity; try apply ncmp_sym. apply String.compare_antisym.
Qed.
Lemma vcmp_trans u v w : vcmp u v <> Gt -> vcmp v w <> Gt -> vcmp u w <> Gt.
Proof.
  destruct u, v, w; simpl; try congruence; try apply ncmp_trans. apply string_compare_trans.
Qed.

(** * Lexicographic combination *)
Definition lex (c d : comparison) : comparison := match c with Eq => d | _ => c end.
Section Lex.
  Context {A : Type} (c d : A -> A -> comparison).
  Hypothesis c_sym : forall a b, c b a = CompOpp (c a b).
  Hypothesis c_trans : forall a b e, c a b <> Gt -> c b e <> Gt -> c a e <> Gt.
  Hypothesis d_sym : forall a b, d b a = CompOpp (d a b).
  Hypothesis d_trans : forall a b e, d a b <> Gt -> d b e <> Gt -> d a e <> Gt.
  Lemma lex_sym a b : lex (c b a) (d b a) = CompOpp (lex (c a b) (d a b)).
  Proof. rewrite (c_sym a b), (d_sym a b). destruct (c a b); simpl; reflexivity. Qed.
  Lemma lex_trans a b e :
    lex (c a b) (d a b) <> Gt -> lex (c b e) (d b e) <> Gt -> lex (c a e) (d a e) <> Gt.
  Proof.
    intros H1 H2.
    destruct (c a b) eqn:E1; simpl in H1; [| |congruence].
    - rewrite (cmp_eq_l _ c c_sym c_trans a b e E1).
      destruct (c b e) eqn:E2; simpl in *; try congruence. now apply (d_trans a b e).
    - assert (Hbe : c b e <> Gt) by (destruct (c b e); simpl in H2; congruence).
      rewrite (clt_le_trans _ c c_sym c_trans a b e E1 Hbe). simpl. congruence.
  Qed.
End Lex.

Definition opcmp (a b : operator) : comparison := Nat.compare (op_value a) (op_value b).
Definition ocmp2 (s t : selector) : comparison := lex (opcmp (s_op s) (s_op t)) (vcmp (s_val s) (s_val t)).
Definition scmp (s t : selector) : comparison := lex (String.compare (s_attr s) (s_attr t)) (ocmp2 s t).

Lemma opcmp_sym a b : opcmp b a = CompOpp (opcmp a b).
Proof. unfold opcmp. apply Nat.compare_antisym. Qed.
Lemma opcmp_trans a b c : opcmp a b <> Gt -> opcmp b c <> Gt -> opcmp a c <> Gt.
Proof. unfold opcmp. rewrite !Nat.compare_le_iff. lia. Qed.
Lemma ocmp2_sym s t : ocmp2 t s = CompOpp (ocmp2 s t).
Proof. unfold ocmp2. apply (lex_sym (fun s t => opcmp (s_op s) (s_op t)) (fun s t => vcmp (s_val s) (s_val t)));
  intros; [apply opcmp_sym|apply vcmp_sym]. Qed.
Lemma ocmp2_trans s t u : ocmp2 s t <> Gt -> ocmp2 t u <> Gt -> ocmp2 s u <> Gt.
Proof.
  apply (lex_trans (fun s t => opcmp (s_op s) (s_op t)) (fun s t => vcmp (s_val s) (s_val t))); intros.
  - apply opcmp_sym.
  - now apply (opcmp_trans _ (s_op b)).
  - now apply (vcmp_trans _ (s_val b)).
Qed.
Lemma scmp_sym s t : scmp t s = CompOpp (scmp s t).
Proof. unfold scmp. apply (lex_sym (fun s t => String.compare (s_attr s) (s_attr t)) ocmp2);
  intros; [apply String.compare_antisym|apply ocmp2_sym]. Qed.
Lemma scmp_trans s t u : scmp s t <> Gt -> scmp t u <> Gt -> scmp s u <> Gt.
Proof.
  apply (lex_trans (fun s t => String.compare (s_attr s) (s_attr t)) ocmp2); intros.
  - apply String.compare_antisym.
  - now apply (string_compare_trans _ (s_attr b)).
  - now apply (ocmp2_trans _ b).
Qed.

(** * The code's methods in terms of [scmp] *)
Lemma op_eq_cmp a b : op_eq a b = match opcmp a b with Eq => true | _ => false end.
Proof. destruct a, b; reflexivity. Qed.
Lemma op_value_inj a b : op_value a = op_value b -> a = b.
Proof. destruct a, b; simpl; congruence. Qed.
Lemma py_eq_cmp v w : py_eq v w = match vcmp v w with Eq => true | _ => false end.
Proof.
  destruct v, w; simpl; try reflexivity; unfold ncmp; simpl; try apply Z.eqb_compare.
  apply string_eqb_compare.
Qed.
Lemma sel_eq_cmp s t : sel_eq s t = match scmp s t with Eq => true | _ => false end.
Proof.
  unfold sel_eq, scmp, ocmp2. rewrite string_eqb_compare, op_eq_cmp, py_eq_cmp.
  destruct (String.compare (s_attr s) (s_attr t)); simpl; try reflexivity.
  destruct (opcmp (s_op s) (s_op t)); simpl; reflexivity.
Qed.
Lemma sel_eq_scmp s t : sel_eq s t = true <-> scmp s t = Eq.
Proof. rewrite sel_eq_cmp. destruct (scmp s t); split; congruence. Qed.
Lemma sel_ne_neg s t : sel_ne s t = negb (sel_eq s t).
Proof.
  unfold sel_ne, sel_eq, op_ne, op_eq.
  destruct (String.eqb (s_attr s) (s_attr t)), (op_value (s_op s) =? op_value (s_op t)),
    (py_eq (s_val s) (s_val t)); reflexivity.
Qed.
Lemma same_kind_sym s t : same_kind s t -> same_kind t s.
Proof. unfold same_kind. intros H H1 H2. symmetry. apply H; congruence. Qed.

Lemma sel_lt_cmp s t : same_kind s t -> sel_lt s t = cltb _ scmp s t.
Proof.
  intro Hk. unfold sel_lt, cltb, scmp, ocmp2.
  rewrite string_eqb_compare, string_ltb_compare.
  destruct (String.compare (s_attr s) (s_attr t)) eqn:E; simpl; try reflexivity.
  apply String.compare_eq_iff in E.
  unfold op_ne, op_lt, opcmp.
  destruct (Nat.compare_spec (op_value (s_op s)) (op_value (s_op t))) as [Eo|Eo|Eo]; simpl.
  - rewrite Eo, Nat.eqb_refl. simpl. rewrite py_eq_cmp.
    apply op_value_inj in Eo. specialize (Hk E Eo).
    destruct (s_val s) as [a|z|m e], (s_val t) as [b|z'|m' e']; simpl in Hk; try discriminate; simpl;
      unfold ncmp; simpl; try (rewrite Z.ltb_compare); try rewrite string_ltb_compare;
      match goal with |- context [(?x ?= ?y)%Z] => destruct (x ?= y)%Z
                 | |- context [String.compare ?x ?y] => destruct (String.compare x y) end; reflexivity.
  - replace (op_value (s_op s) =? op_value (s_op t)) with false by (symmetry; apply Nat.eqb_neq; lia).
    simpl. apply Nat.ltb_lt. assumption.
  - replace (op_value (s_op s) =? op_value (s_op t)) with false by (symmetry; apply Nat.eqb_neq; lia).
    simpl. apply Nat.ltb_ge. lia.
Qed.
Lemma sel_gt_lt s t : sel_gt s t = sel_lt t s.
Proof.
  unfold sel_gt, sel_lt. rewrite (String.eqb_sym (s_attr t) (s_attr s)).
  unfold op_ne, op_gt, op_lt. rewrite (Nat.eqb_sym (op_value (s_op t))).
  rewrite (py_eq_cmp (s_val t)), (vcmp_sym (s_val s) (s_val t)), (py_eq_cmp (s_val s)).
  destruct (vcmp (s_val s) (s_val t)); reflexivity.
Qed.
Lemma sel_ge_le s t : sel_ge s t = sel_le t s.
Proof.
  unfold sel_ge, sel_le. rewrite (String.eqb_sym (s_attr t) (s_attr s)).
  unfold op_ne, op_ge, op_le. rewrite (Nat.eqb_sym (op_value (s_op t))).
  rewrite (py_eq_cmp (s_val t)), (vcmp_sym (s_val s) (s_val t)), (py_eq_cmp (s_val s)).
  destruct (vcmp (s_val s) (s_val t)); reflexivity.
Qed.
Lemma sel_le_cmp s t : same_kind s t -> sel_le s t = match scmp s t with Gt => false | _ => true end.
Proof.
  intro Hk. unfold sel_le, scmp, ocmp2.
  rewrite string_eqb_compare, string_leb_compare.
  destruct (String.compare (s_attr s) (s_attr t)) eqn:E; simpl; try reflexivity.
  apply String.compare_eq_iff in E.
  unfold op_ne, op_le, opcmp.
  destruct (Nat.compare_spec (op_value (s_op s)) (op_value (s_op t))) as [Eo|Eo|Eo]; simpl.
  - rewrite Eo, Nat.eqb_refl. simpl. rewrite py_eq_cmp.
    apply op_value_inj in Eo. specialize (Hk E Eo).
    destruct (s_val s) as [a|z|m e], (s_val t) as [b|z'|m' e']; simpl in Hk; try discriminate; simpl;
      unfold ncmp; simpl; try (rewrite Z.leb_compare); try rewrite string_leb_compare;
      match goal with |- context [(?x ?= ?y)%Z] => destruct (x ?= y)%Z
                 | |- context [String.compare ?x ?y] => destruct (String.compare x y) end; reflexivity.
  - replace (op_value (s_op s) =? op_value (s_op t)) with false by (symmetry; apply Nat.eqb_neq; lia).
    simpl. apply Nat.leb_le. lia.
  - replace (op_value (s_op s) =? op_value (s_op t)) with false by (symmetry; apply Nat.eqb_neq; lia).
    simpl. apply Nat.leb_gt. lia.
Qed.

(** ** C04 *)
Lemma sel_trichotomy s t : same_kind s t ->
  (sel_lt s t = true /\ sel_eq s t = false /\ sel_gt s t = false) \/
  (sel_lt s t = false /\ sel_eq s t = true /\ sel_gt s t = false) \/
  (sel_lt s t = false /\ sel_eq s t = false /\ sel_gt s t = true).
Proof.
  intro Hk. rewrite sel_gt_lt, sel_eq_cmp, (sel_lt_cmp s t Hk), (sel_lt_cmp t s (same_kind_sym _ _ Hk)).
  unfold cltb. rewrite (scmp_sym s t). destruct (scmp s t); simpl; auto.
Qed.
Lemma sel_lt_trans s t u : same_kind s t -> same_kind t u -> same_kind s u ->
  sel_lt s t = true -> sel_lt t u = true -> sel_lt s u = true.
Proof.
  intros H1 H2 H3. rewrite !sel_lt_cmp by assumption. rewrite !cltb_lt.
  apply (clt_trans _ scmp scmp_sym scmp_trans).
Qed.
Lemma sel_le_lt_eq s t : same_kind s t -> sel_le s t = sel_lt s t || sel_eq s t.
Proof.
  intro Hk. rewrite sel_le_cmp, sel_lt_cmp, sel_eq_cmp by assumption. unfold cltb.
  destruct (scmp s t); reflexivity.
Qed.
Lemma sel_eq_trans s t u : sel_eq s t = true -> sel_eq t u = true -> sel_eq s u = true.
Proof. rewrite !sel_eq_scmp. apply (eq_trans_cmp _ scmp scmp_sym scmp_trans). Qed.
Lemma sel_eq_refl s : sel_eq s s = true.
Proof. apply sel_eq_scmp. apply (cmp_refl _ scmp scmp_sym). Qed.
Lemma sel_eq_sym s t : sel_eq s t = sel_eq t s.
Proof. rewrite !sel_eq_cmp, (scmp_sym s t). destruct (scmp s t); reflexivity. Qed.

(** * Patterns *)
Notation slt := (lt_ _ scmp).
Notation sle := (le_ _ scmp).
Definition sltb := cltb _ scmp.

Definition compat (l : list selector) (s : selector) : Prop := forall x, In x l -> same_kind x s.

Lemma sorted_strictly_slt l : homogeneous l -> (sorted_strictly l <-> StronglySorted slt l).
Proof.
  intro H. unfold sorted_strictly.
  induction l as [|x l IH]; [split; constructor|].
  assert (Hl : homogeneous l) by (intros a b Ha Hb; apply H; now right).
  split; intro Hs; inversion Hs as [|? ? Hs' Hf]; subst; constructor.
  - now apply (IH Hl).
  - apply Forall_forall. intros y Hy. rewrite Forall_forall in Hf.
    apply cltb_lt. rewrite <- sel_lt_cmp; [now apply Hf|apply H; [now left|now right]].
  - now apply (IH Hl).
  - apply Forall_forall. intros y Hy. rewrite Forall_forall in Hf.
    rewrite sel_lt_cmp; [apply cltb_lt; now apply Hf|apply H; [now left|now right]].
Qed.

Lemma dedup_spec l : forall last,
  StronglySorted sle (match last with Some x => x :: l | None => l end) ->
  StronglySorted slt (match last with Some x => x :: dedup_consecutive last l | None => dedup_consecutive last l end)
  /\ incl (dedup_consecutive last l) l
  /\ (forall s, member s (match last with Some x => x :: l | None => l end) <->
                member s (match last with Some x => x :: dedup_consecutive last l | None => dedup_consecutive last l end)).
Proof.
  induction l as [|e l IH]; intros last Hs.
  - simpl. destruct last as [x|].
    + split; [repeat constructor|]. split; [intros y []|tauto].
    + split; [constructor|]. split; [intros y []|tauto].
  - simpl. destruct last as [x|].
    + inversion Hs as [|? ? Hs1 Hf]; subst. inversion Hs1 as [|? ? Hs2 Hf2]; subst.
      assert (Hxe : sle x e) by (inversion Hf; assumption).
      rewrite sel_ne_neg, sel_eq_cmp.
      destruct (scmp x e) eqn:E; simpl; [| |exfalso; now apply Hxe].
      * destruct (IH (Some x)) as (H1 & H2 & H3).
        { constructor; [assumption|]. inversion Hf; assumption. }
        repeat split; [exact H1|now apply incl_tl| |].
        -- intros (y & [<-|[<-|Hy]] & Hyeq).
           ++ exists x. split; [now left|assumption].
           ++ exists x. split; [now left|]. apply sel_eq_trans with e; [now apply sel_eq_scmp|assumption].
           ++ apply H3. exists y. split; [now right|assumption].
        -- intro Hm. apply H3 in Hm. destruct Hm as (y & Hy & Hyeq). exists y. split; [|assumption].
           destruct Hy as [<-|Hy]; [now left|right; now right].
      * destruct (IH (Some e)) as (H1 & H2 & H3); [assumption|].
        repeat split.
        -- constructor; [exact H1|]. apply Forall_forall. intros y [<-|Hy]; [exact E|].
           apply (clt_le_trans _ scmp scmp_sym scmp_trans x e y E).
           rewrite Forall_forall in Hf2. apply Hf2. now apply H2.
        -- intros y [<-|Hy]; [now left|right; now apply H2].
        -- intros (y & [<-|Hy] & Hyeq); [exists x; split; [now left|assumption]|].
           assert (Hm : member s (e :: l)) by (now exists y).
           apply H3 in Hm. destruct Hm as (z & Hz & Hzeq). exists z. split; [now right|assumption].
        -- intros (y & [<-|Hy] & Hyeq); [exists x; split; [now left|assumption]|].
           assert (Hm : member s (e :: dedup_consecutive (Some e) l)) by (now exists y).
           apply H3 in Hm. destruct Hm as (z & Hz & Hzeq). exists z. split; [now right|assumption].
    + destruct (IH (Some e) Hs) as (H1 & H2 & H3).
      repeat split; [exact H1|intros y [<-|Hy]; [now left|right; now apply H2]| |]; apply H3.
Qed.

Lemma pattern_init_sort l : homogeneous l ->
  pattern_init l = dedup_consecutive None (sort_by sltb l).
Proof.
  intro H. unfold pattern_init. f_equal. apply sort_by_ext.
  intros x y Hx Hy. apply sel_lt_cmp. now apply H.
Qed.
Lemma pattern_init_spec l : homogeneous l ->
  StronglySorted slt (pattern_init l) /\ incl (pattern_init l) l /\
  (forall s, member s (pattern_init l) <-> member s l).
Proof.
  intro H. rewrite pattern_init_sort by assumption.
  destruct (dedup_spec (sort_by sltb l) None) as (H1 & H2 & H3).
  - apply (sort_sorted _ scmp scmp_sym scmp_trans).
  - repeat split; [exact H1|intros x Hx; apply H2 in Hx; now apply sort_by_in in Hx| |].
    + intro Hm. apply H3 in Hm. destruct Hm as (y & Hy & E). exists y. split; [now apply sort_by_in in Hy|assumption].
    + intros (y & Hy & E). apply H3. exists y. split; [now apply sort_by_in|assumption].
Qed.

(** The split of a sorted pattern at the bisection point. *)
Lemma bisect_split p s : StronglySorted slt p -> compat p s ->
  let i := bisect_left sel_lt p s in
  i <= length p /\
  (forall y, In y (firstn i p) -> slt y s) /\
  (match nth_error p i with
   | Some x => exists r, skipn i p = x :: r /\ sle s x /\ (forall y, In y r -> slt x y)
   | None => skipn i p = [] /\ i = length p
   end).
Proof.
  intros Hs Hc. cbv zeta.
  rewrite (bisect_left_ext sel_lt sltb) by (intros y Hy; apply sel_lt_cmp; now apply Hc).
  destruct (bisect_left_spec _ scmp scmp_sym scmp_trans p s (SS_lt_le _ _ _ Hs)) as (H1 & H2 & H3).
  fold sltb in *. set (i := bisect_left sltb p s) in *.
  split; [exact H1|]. split; [exact H2|].
  destruct (nth_error p i) as [x|] eqn:E.
  - destruct (skipn i p) as [|x' r] eqn:Es.
    + apply (f_equal (@length _)) in Es. rewrite skipn_length in Es. simpl in Es.
      assert (Hn : nth_error p i <> None) by congruence. apply nth_error_Some in Hn. lia.
    + assert (x' = x).
      { rewrite <- (firstn_skipn i p), Es in E. rewrite nth_error_app2 in E by (rewrite firstn_length; lia).
        rewrite firstn_length, Nat.min_l, Nat.sub_diag in E by lia. simpl in E. congruence. }
      subst x'. exists r. split; [reflexivity|]. split; [apply H3; now left|].
      rewrite <- (firstn_skipn i p), Es in Hs. apply SS_app in Hs. destruct Hs as (_ & Hs & _).
      inversion Hs as [|? ? _ Hf]; subst. now apply Forall_forall.
  - apply nth_error_None in E. split; [apply skipn_all2; lia|lia].
Qed.

Lemma skipn_S_cons {A} i (l r : list A) x : skipn i l = x :: r -> skipn (S i) l = r.
Proof.
  revert l. induction i as [|i IH]; intros l H; simpl in H; [now subst|].
  destruct l as [|y l]; [discriminate|]. simpl. now apply IH in H.
Qed.

Lemma add_selector_spec p s : StronglySorted slt p -> compat p s ->
  StronglySorted slt (add_selector p s) /\
  incl (add_selector p s) (s :: p) /\
  (forall t, member t (add_selector p s) <-> member t (s :: p)) /\
  length (add_selector p s) = (if memberb s p then length p else S (length p)).
Proof.
  intros Hs Hc. unfold add_selector.
  destruct (bisect_split p s Hs Hc) as (Hi & Hl & Hr). set (i := bisect_left sel_lt p s) in *.
  destruct (nth_error p i) as [x|] eqn:E.
  - destruct Hr as (r & Er & Hsx & Hxr).
    assert (Hp : p = firstn i p ++ x :: r) by (rewrite <- Er; symmetry; apply firstn_skipn).
    rewrite sel_ne_neg, sel_eq_cmp, (scmp_sym s x).
    destruct (scmp s x) eqn:Ec; simpl; [| |exfalso; now apply Hsx].
    + (* already present *)
      assert (Hmem : memberb s p = true).
      { apply existsb_exists. exists x. split; [now apply nth_error_In in E|].
        apply sel_eq_scmp. now apply (cmp_eq_sym _ scmp scmp_sym). }
      rewrite Hmem. repeat split; [assumption|now apply incl_tl, incl_refl| |].
      * intros (y & Hy & Hyt). exists y. split; [now right|assumption].
      * intros (y & [<-|Hy] & Hyt); [|exists y; split; assumption].
        exists x. split; [now apply nth_error_In in E|].
        apply sel_eq_trans with s; [|assumption]. rewrite sel_eq_sym. now apply sel_eq_scmp.
    + (* inserted before x *)
      assert (Hmem : memberb s p = false).
      { apply not_true_is_false. intro Hm. apply existsb_exists in Hm. destruct Hm as (y & Hy & Hys).
        apply sel_eq_scmp in Hys. rewrite Hp in Hy. apply in_app_iff in Hy. destruct Hy as [Hy|[<-|Hy]].
        - apply Hl in Hy. unfold lt_ in Hy. congruence.
        - apply (cmp_eq_sym _ scmp scmp_sym) in Hys. congruence.
        - apply Hxr in Hy. apply (clt_trans _ scmp scmp_sym scmp_trans s x y Ec) in Hy.
          apply (cmp_eq_sym _ scmp scmp_sym) in Hys. congruence. }
      rewrite Hmem. unfold list_insert. rewrite Er.
      assert (Hperm : Permutation (s :: p) (firstn i p ++ s :: x :: r)).
      { rewrite Hp at 1. apply Permutation_middle. }
      repeat split.
      * rewrite Hp in Hs. apply SS_app in Hs. destruct Hs as (Ha & Hb & Hab). apply SS_app.
        repeat split; [assumption| |].
        -- constructor; [assumption|]. constructor; [assumption|]. apply Forall_forall. intros y Hy.
           apply Hxr in Hy. now apply (clt_trans _ scmp scmp_sym scmp_trans s x y).
        -- intros a b Ha' [<-|Hb']; [now apply Hl|now apply Hab].
      * intros y Hy. now apply (Permutation_in y (Permutation_sym Hperm)).
      * intros (y & Hy & Hyt). exists y. split; [now apply (Permutation_in y (Permutation_sym Hperm))|assumption].
      * intros (y & Hy & Hyt). exists y. split; [now apply (Permutation_in y Hperm)|assumption].
      * rewrite <- (Permutation_length Hperm). reflexivity.
  - destruct Hr as (Er & Elen).
    assert (Hfl : firstn i p = p) by (rewrite Elen; apply firstn_all).
    rewrite Hfl in Hl.
    assert (Hmem : memberb s p = false).
    { apply not_true_is_false. intro Hm. apply existsb_exists in Hm. destruct Hm as (y & Hy & Hys).
      apply sel_eq_scmp in Hys. apply Hl in Hy. unfold lt_ in Hy. congruence. }
    rewrite Hmem.
    assert (Hperm : Permutation (s :: p) (p ++ [s])) by apply Permutation_cons_append.
    repeat split.
    + apply SS_app. repeat split; [assumption|repeat constructor|].
      intros a b Ha [<-|[]]. now apply Hl.
    + intros y Hy. now apply (Permutation_in y (Permutation_sym Hperm)).
    + intros (y & Hy & Hyt). exists y. split; [now apply (Permutation_in y (Permutation_sym Hperm))|assumption].
    + intros (y & Hy & Hyt). exists y. split; [now apply (Permutation_in y Hperm)|assumption].
    + rewrite <- (Permutation_length Hperm). reflexivity.
Qed.

Lemma filter_all {A} (f : A -> bool) l : (forall x, In x l -> f x = true) -> filter f l = l.
Proof.
  induction l as [|x l IH]; simpl; intro H; [reflexivity|].
  rewrite (H x) by (now left). f_equal. apply IH. intros y Hy. apply H. now right.
Qed.

Lemma remove_selector_spec p s : StronglySorted slt p -> compat p s ->
  remove_selector p s = set_remove p s.
Proof.
  intros Hs Hc. unfold remove_selector, set_remove.
  destruct (bisect_split p s Hs Hc) as (Hi & Hl & Hr). set (i := bisect_left sel_lt p s) in *.
  assert (Hne : forall y, slt y s -> negb (sel_eq y s) = true).
  { intros y Hy. rewrite sel_eq_cmp. unfold lt_ in Hy. now rewrite Hy. }
  assert (Hgt : forall y, slt s y -> negb (sel_eq y s) = true).
  { intros y Hy. rewrite sel_eq_cmp, (scmp_sym s y). unfold lt_ in Hy. now rewrite Hy. }
  destruct (nth_error p i) as [x|] eqn:E.
  - destruct Hr as (r & Er & Hsx & Hxr).
    assert (Hp : p = firstn i p ++ x :: r) by (rewrite <- Er; symmetry; apply firstn_skipn).
    rewrite sel_eq_cmp, (scmp_sym s x). rewrite Hp at 3. rewrite filter_app. simpl.
    destruct (scmp s x) eqn:Ec; simpl; [| |exfalso; now apply Hsx].
    + unfold list_pop. rewrite (skipn_S_cons i p r x Er).
      rewrite (filter_all _ (firstn i p)) by (intros y Hy; apply Hne; now apply Hl).
      rewrite (sel_eq_cmp x s), (scmp_sym s x), Ec. simpl. f_equal. symmetry. apply filter_all.
      intros y Hy. apply Hgt. apply (cle_lt_trans _ scmp scmp_sym scmp_trans s x y); [unfold le_ in *; congruence|now apply Hxr].
    + rewrite (filter_all _ (firstn i p)) by (intros y Hy; apply Hne; now apply Hl).
      rewrite (sel_eq_cmp x s), (scmp_sym s x), Ec. simpl.
      rewrite (filter_all _ r); [assumption|].
      intros y Hy. apply Hgt. apply (clt_trans _ scmp scmp_sym scmp_trans s x y); [assumption|now apply Hxr].
  - destruct Hr as (Er & Elen).
    assert (Hfl : firstn i p = p) by (rewrite Elen; apply firstn_all). rewrite Hfl in Hl.
    symmetry. apply filter_all. intros y Hy. apply Hne. now apply Hl.
Qed.

Lemma pattern_contains_spec p s : StronglySorted slt p -> compat p s ->
  (pattern_contains p s = true <-> member s p).
Proof.
  intros Hs Hc. unfold pattern_contains.
  destruct p as [|p0 p']; [split; [discriminate|intros (x & [] & _)]|]. set (p := p0 :: p') in *.
  destruct (bisect_split p s Hs Hc) as (Hi & Hl & Hr). set (i := bisect_left sel_lt p s) in *.
  destruct (nth_error p i) as [x|] eqn:E.
  - destruct Hr as (r & Er & Hsx & Hxr).
    assert (Hp : p = firstn i p ++ x :: r) by (rewrite <- Er; symmetry; apply firstn_skipn).
    split; [intro H; exists x; split; [now apply nth_error_In in E|assumption]|].
    intros (y & Hy & Hys). apply sel_eq_scmp in Hys. rewrite Hp in Hy. apply in_app_iff in Hy.
    destruct Hy as [Hy|[<-|Hy]].
    + apply Hl in Hy. unfold lt_ in Hy. congruence.
    + now apply sel_eq_scmp.
    + apply Hxr in Hy. apply (cle_lt_trans _ scmp scmp_sym scmp_trans s x y Hsx) in Hy.
      apply (cmp_eq_sym _ scmp scmp_sym) in Hys. congruence.
  - destruct Hr as (Er & Elen).
    assert (Hfl : firstn i p = p) by (rewrite Elen; apply firstn_all). rewrite Hfl in Hl.
    split; [discriminate|]. intros (y & Hy & Hys). apply sel_eq_scmp in Hys. apply Hl in Hy. unfold lt_ in Hy. congruence.
Qed.

(** * Facts about [<] for all selectors, whatever the kinds of their values *)
Lemma string_ltb_asym a b : String.ltb a b = true -> String.ltb b a = false.
Proof. rewrite !string_ltb_compare, (String.compare_antisym b a). destruct (String.compare a b); simpl; congruence. Qed.
Lemma lt_not_eq s t : sel_lt s t = true -> sel_eq s t = false.
Proof.
  unfold sel_lt, sel_eq, op_ne, op_eq. destruct (String.eqb_spec (s_attr s) (s_attr t)) as [E|E]; cbn [negb andb]; [|reflexivity].
  destruct (op_value (s_op s) =? op_value (s_op t)); cbn [negb andb]; [|reflexivity]. destruct (py_eq (s_val s) (s_val t)); cbn [negb]; congruence.
Qed.
Lemma py_eq_sym v w : py_eq v w = py_eq w v.
Proof. rewrite !py_eq_cmp, (vcmp_sym w v). destruct (vcmp w v); reflexivity. Qed.
Lemma lt_asym s t : sel_lt s t = true -> sel_lt t s = false.
Proof.
  unfold sel_lt, op_ne, op_lt. rewrite (String.eqb_sym (s_attr t)), (Nat.eqb_sym (op_value (s_op t))), (py_eq_sym (s_val t)).
  destruct (String.eqb (s_attr s) (s_attr t)); cbn [negb]; [|apply string_ltb_asym].
  destruct (op_value (s_op s) =? op_value (s_op t)); cbn [negb].
  - destruct (py_eq (s_val s) (s_val t)) eqn:E; cbn [negb]; [congruence|].
    destruct (s_val s) as [a|z|m e], (s_val t) as [b|z'|m' e']; unfold py_lt; cbn [num_of try_or_str]; try apply string_ltb_asym;
      intros H; apply Z.ltb_lt in H; apply Z.ltb_ge; lia.
  - rewrite Nat.ltb_lt. intros H. apply Nat.ltb_ge. lia.
Qed.
Lemma sort_sorted_same l : sorted_strictly l -> sort_by sel_lt l = l.
Proof.
  intros S. induction S as [|x l S IH F]; [reflexivity|]. cbn [sort_by]. rewrite IH. destruct l as [|y l]; [reflexivity|].
  cbn [insert_by]. inversion F as [|? ? L _]; subst. rewrite (lt_asym _ _ L). reflexivity.
Qed.
Lemma dedup_sorted_same l : forall last, (forall x, last = Some x -> sorted_strictly (x :: l)) -> sorted_strictly l -> dedup_consecutive last l = l.
Proof.
  induction l as [|e l IH]; intros last HL S; [reflexivity|]. cbn [dedup_consecutive].
  assert (E : match last with None => true | Some x => sel_ne x e end = true).
  { destruct last as [x|]; [|reflexivity]. specialize (HL x eq_refl). inversion HL as [|? ? _ F]; subst. inversion F as [|? ? L _]; subst. rewrite sel_ne_neg, (lt_not_eq _ _ L). reflexivity. }
  rewrite E. f_equal. inversion S; subst. apply IH; auto. intros x X. injection X as <-. exact S.
Qed.
Lemma pattern_init_same l : sorted_strictly l -> pattern_init l = l.
Proof. intros S. unfold pattern_init. rewrite sort_sorted_same by exact S. apply dedup_sorted_same; [discriminate|exact S]. Qed.
(** [<=] on an ordered pair. *)
Lemma le_of_one s t : sel_lt s t = true \/ sel_eq s t = true \/ sel_lt t s = true -> sel_le s t = sel_lt s t || sel_eq s t.
Proof.
  intros H. assert (D : same_kind s t \/ (s_attr s = s_attr t /\ s_op s = s_op t /\ is_str (s_val s) <> is_str (s_val t))).
  { unfold same_kind. destruct (String.eqb_spec (s_attr s) (s_attr t)) as [E|E]; [|left; intros X; congruence].
    destruct (Nat.eq_dec (op_value (s_op s)) (op_value (s_op t))) as [Eo|Eo]; [|left; intros _ X; congruence].
    apply op_value_inj in Eo. destruct (Bool.bool_dec (is_str (s_val s)) (is_str (s_val t))) as [K|K]; [left; auto|right; auto]. }
  destruct D as [D|(D1 & D2 & D3)]; [apply sel_le_lt_eq; exact D|]. unfold sel_le, sel_lt, sel_eq in *. rewrite D1, D2, String.eqb_refl in *. unfold op_ne, op_eq in *. rewrite Nat.eqb_refl in *. cbn [negb andb] in *.
  assert (Q : py_eq (s_val s) (s_val t) = false /\ py_eq (s_val t) (s_val s) = false) by (destruct (s_val s), (s_val t); cbn in D3; try congruence; split; reflexivity).
  rewrite (proj1 Q), (proj2 Q) in *. cbn [negb] in *. rewrite Bool.orb_false_r.
  assert (Q2 : py_lt (s_val s) (s_val t) = Err TypeError /\ py_lt (s_val t) (s_val s) = Err TypeError /\ py_le (s_val s) (s_val t) = Err TypeError) by (destruct (s_val s), (s_val t); cbn in D3; try congruence; repeat split; reflexivity).
  destruct Q2 as (Q2 & Q3 & Q4). rewrite Q2, Q3 in H. rewrite Q2, Q4. cbn [try_or_str] in *.
  rewrite !string_ltb_compare in *. unfold String.leb. rewrite (String.compare_antisym (py_str (s_val t))) in H. destruct (String.compare (py_str (s_val s)) (py_str (s_val t))); cbn in H; auto. destruct H as [H|[H|H]]; discriminate.
Qed.
