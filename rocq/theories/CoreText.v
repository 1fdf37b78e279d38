(** Text round trips (C03, C08, C09), the selector pool (C02) and hashes (C05). *)
From Coq Require Import DecimalString DecimalN DecimalPos.
From Verif Require Import Base OrderFacts CoreModel CoreSpec CoreOrder CorePattern.
Open Scope string_scope.
Open Scope nat_scope.

Lemma app_nil_r_str s : s ++ "" = s.
Proof. induction s as [|c s IH]; simpl; [reflexivity|now rewrite IH]. Qed.
Lemma app_assoc_str a b c : (a ++ b) ++ c = a ++ b ++ c.
Proof. induction a as [|x a IH]; simpl; [reflexivity|now rewrite IH]. Qed.
Lemma length_app_str a b : String.length (a ++ b) = String.length a + String.length b.
Proof. induction a as [|x a IH]; simpl; [reflexivity|now rewrite IH]. Qed.
Lemma has_char_app c a b : has_char c (a ++ b) = has_char c a || has_char c b.
Proof. induction a as [|x a IH]; simpl; [reflexivity|rewrite IH; apply orb_assoc]. Qed.
Lemma split1_app c a r : has_char c a = false -> split1 c (a ++ String c r) = Some (a, r).
Proof.
  induction a as [|x a IH]; simpl; intro H.
  - now rewrite Ascii.eqb_refl.
  - apply orb_false_iff in H. destruct H as [H1 H2]. now rewrite H1, (IH H2).
Qed.

(** * Numbers *)
Fixpoint all_digits (s : string) : bool :=
  match s with EmptyString => true | String c s' => is_digit c && all_digits s' end.
Lemma all_digits_app a b : all_digits (a ++ b) = all_digits a && all_digits b.
Proof. induction a as [|x a IH]; simpl; [reflexivity|rewrite IH; apply andb_assoc]. Qed.
Lemma all_digits_uint d : all_digits (NilEmpty.string_of_uint d) = true.
Proof. induction d; simpl; assumption || reflexivity. Qed.
Lemma all_digits_no_char c s : is_digit c = false -> all_digits s = true -> has_char c s = false.
Proof.
  intros Hc. induction s as [|x s IH]; simpl; [reflexivity|]. intro H. apply andb_true_iff in H.
  destruct H as [Hx Hs]. rewrite (IH Hs), orb_false_r. apply Ascii.eqb_neq. congruence.
Qed.
Lemma to_uint_nonnil n : N.to_uint n <> Decimal.Nil.
Proof. destruct n as [|p]; simpl; [discriminate|apply DecimalPos.Unsigned.to_uint_nonnil]. Qed.
Lemma str_of_N_empty n : str_of_N n = NilEmpty.string_of_uint (N.to_uint n).
Proof.
  unfold str_of_N, NilZero.string_of_uint. pose proof (to_uint_nonnil n).
  destruct (N.to_uint n); congruence.
Qed.
Lemma str_of_N_digits n : all_digits (str_of_N n) = true.
Proof. rewrite str_of_N_empty. apply all_digits_uint. Qed.
Lemma str_of_N_nonempty n : str_of_N n <> "".
Proof. rewrite str_of_N_empty. pose proof (to_uint_nonnil n). destruct (N.to_uint n); simpl; congruence. Qed.
Lemma uint_of_zeros k s :
  option_map N.of_uint (NilEmpty.uint_of_string (zeros k ++ s)) = option_map N.of_uint (NilEmpty.uint_of_string s).
Proof.
  induction k as [|k IH]; simpl; [reflexivity|]. rewrite <- IH.
  destruct (NilEmpty.uint_of_string (zeros k ++ s)); reflexivity.
Qed.
Lemma digits_value_zeros k n : digits_value (zeros k ++ str_of_N n) = Some n.
Proof.
  assert (Hne : zeros k ++ str_of_N n <> "").
  { destruct k; simpl; [apply str_of_N_nonempty|discriminate]. }
  pose proof (uint_of_zeros k (str_of_N n)) as H.
  rewrite str_of_N_empty in H at 2. rewrite NilEmpty.usu in H. cbn [option_map] in H. rewrite DecimalN.Unsigned.of_to in H.
  unfold digits_value. destruct (zeros k ++ str_of_N n) as [|c t] eqn:E; [congruence|].
  destruct (NilEmpty.uint_of_string (String c t)); simpl in H; congruence.
Qed.
Lemma digits_value_str n : digits_value (str_of_N n) = Some n.
Proof. exact (digits_value_zeros 0 n). Qed.
Lemma str_of_Z_sign z : str_of_Z z = (if (z <? 0)%Z then "-" else "") ++ str_of_N (Z.abs_N z).
Proof. destruct z as [|p|p]; reflexivity. Qed.
Lemma apply_sign_abs z : apply_sign (z <? 0)%Z (Z.abs_N z) = z.
Proof. destruct z; reflexivity. Qed.

Fixpoint no_ws (s : string) : bool :=
  match s with EmptyString => true | String c s' => negb (is_ws c) && no_ws s' end.
Lemma rstrip_no_ws s : no_ws s = true -> rstrip s = s.
Proof.
  induction s as [|c s IH]; simpl; [reflexivity|]. intro H. apply andb_true_iff in H. destruct H as [Hc Hs].
  rewrite (IH Hs). apply negb_true_iff in Hc. rewrite Hc. destruct s; reflexivity.
Qed.
Lemma py_strip_no_ws s : no_ws s = true -> py_strip s = s.
Proof.
  intro H. unfold py_strip. assert (E : lstrip s = s).
  { destruct s as [|c s]; simpl in *; [reflexivity|]. apply andb_true_iff in H. destruct H as [Hc _].
    apply negb_true_iff in Hc. now rewrite Hc. }
  rewrite E. now apply rstrip_no_ws.
Qed.
Lemma is_digit_not_ws c : is_digit c = true -> is_ws c = false.
Proof.
  unfold is_digit, is_ws. intro H. apply andb_true_iff in H. destruct H as [H1 H2].
  apply N.leb_le in H1, H2. apply orb_false_iff. split; [apply N.eqb_neq; lia|].
  apply andb_false_iff. right. apply N.leb_gt. lia.
Qed.
Lemma digits_no_ws s : all_digits s = true -> no_ws s = true.
Proof.
  induction s as [|c s IH]; simpl; [reflexivity|]. intro H. apply andb_true_iff in H. destruct H as [Hc Hs].
  now rewrite (is_digit_not_ws c Hc), (IH Hs).
Qed.
Lemma no_ws_app a b : no_ws (a ++ b) = no_ws a && no_ws b.
Proof. induction a as [|x a IH]; simpl; [reflexivity|rewrite IH; apply andb_assoc]. Qed.
Lemma split_sign_digits neg s : all_digits s = true -> s <> "" ->
  split_sign ((if neg : bool then "-" else "") ++ s) = (neg, s).
Proof.
  intros Hd Hne. destruct neg; simpl; [reflexivity|]. destruct s as [|c s]; [congruence|]. simpl in *.
  apply andb_true_iff in Hd. destruct Hd as [Hc _].
  replace (Ascii.eqb c "-") with false by (symmetry; apply Ascii.eqb_neq; intros ->; discriminate).
  replace (Ascii.eqb c "+") with false by (symmetry; apply Ascii.eqb_neq; intros ->; discriminate).
  reflexivity.
Qed.
Lemma strip_underscores_digits s b : all_digits s = true -> (s <> "" \/ b = true) -> strip_underscores b s = Some s.
Proof.
  revert b. induction s as [|c s IH]; intros b Hd Hb; simpl.
  - destruct Hb as [Hb|Hb]; [congruence|now rewrite Hb].
  - simpl in Hd. apply andb_true_iff in Hd. destruct Hd as [Hc Hs]. rewrite Hc, (IH true Hs); [reflexivity|now right].
Qed.
Lemma no_ws_signed (neg : bool) s : no_ws s = true -> no_ws ((if neg then "-" else "") ++ s) = true.
Proof. intro H. destruct neg; simpl; assumption. Qed.
Lemma py_int_str z : py_int (str_of_Z z) = Some z.
Proof.
  unfold py_int. rewrite str_of_Z_sign.
  pose proof (str_of_N_digits (Z.abs_N z)) as Hd. pose proof (str_of_N_nonempty (Z.abs_N z)) as Hne.
  rewrite py_strip_no_ws by (apply no_ws_signed; now apply digits_no_ws).
  rewrite split_sign_digits by assumption.
  rewrite strip_underscores_digits by (try assumption; now left).
  rewrite digits_value_str. simpl. f_equal. apply apply_sign_abs.
Qed.

Lemma take_drop_str k s : take_str k s ++ drop_str k s = s.
Proof. revert s. induction k as [|k IH]; intros [|c s]; simpl; try reflexivity. now rewrite IH. Qed.
Lemma drop_length k s : String.length (drop_str k s) = String.length s - k.
Proof. revert s. induction k as [|k IH]; intros [|c s]; simpl; try reflexivity. apply IH. Qed.
Lemma zeros_length k : String.length (zeros k) = k.
Proof. induction k; simpl; congruence. Qed.
Lemma zeros_digits k : all_digits (zeros k) = true.
Proof. induction k; simpl; [reflexivity|assumption]. Qed.

Lemma py_float_str m e : 1 <= e /\ (e = 1 \/ (m mod 10 <> 0)%Z) ->
  py_float (str_of_float m e) = Ok (m, e).
Proof.
  intros [He Hc]. unfold py_float, str_of_float.
  set (ds := zeros (S e - String.length (str_of_N (Z.abs_N m))) ++ str_of_N (Z.abs_N m)).
  assert (Hd : all_digits ds = true).
  { unfold ds. rewrite all_digits_app, zeros_digits, str_of_N_digits. reflexivity. }
  assert (Hl : e < String.length ds).
  { unfold ds. rewrite length_app_str, zeros_length. lia. }
  assert (Hv : digits_value ds = Some (Z.abs_N m)) by apply digits_value_zeros.
  set (k := String.length ds - e).
  set (ip := take_str k ds). set (fp := drop_str k ds).
  assert (Hipfp : ip ++ fp = ds) by apply take_drop_str.
  assert (Hfp : String.length fp = e) by (unfold fp, k; rewrite drop_length; lia).
  assert (Hip : all_digits ip = true /\ all_digits fp = true).
  { rewrite <- Hipfp, all_digits_app in Hd. now apply andb_true_iff in Hd. }
  destruct Hip as [Hipd Hfpd].
  assert (Hipne : ip <> "").
  { intro E. rewrite E in Hipfp. simpl in Hipfp. rewrite Hipfp in Hfp. lia. }
  rewrite py_strip_no_ws.
  2:{ apply no_ws_signed. rewrite !no_ws_app, (digits_no_ws ip Hipd), (digits_no_ws fp Hfpd). reflexivity. }
  assert (Hss : split_sign ((if (m <? 0)%Z then "-" else "") ++ ip ++ "." ++ fp) = ((m <? 0)%Z, ip ++ "." ++ fp)).
  { destruct (m <? 0)%Z; [reflexivity|]. destruct ip as [|c ip']; [congruence|]. simpl in *.
    apply andb_true_iff in Hipd. destruct Hipd as [Hcd _].
    replace (Ascii.eqb c "-") with false by (symmetry; apply Ascii.eqb_neq; intros ->; discriminate).
    replace (Ascii.eqb c "+") with false by (symmetry; apply Ascii.eqb_neq; intros ->; discriminate).
    reflexivity. }
  rewrite Hss. unfold parse_mantissa. change ("." ++ fp) with (String "." fp).
  rewrite split1_app by (now apply all_digits_no_char).
  rewrite Hipfp, Hv. cbn [option_map]. rewrite apply_sign_abs, Hfp. f_equal.
  destruct e as [|[|e]]; [lia|reflexivity|]. cbn [canon_float].
  destruct (Z.eqb_spec (m mod 10) 0) as [E|E]; [|reflexivity]. destruct Hc as [Hc|Hc]; [lia|contradiction].
Qed.

(** * Selectors *)
Lemma op_str_no_space o : has_char " " (op_str o) = false.
Proof. destruct o; reflexivity. Qed.
Lemma op_parse_str o : op_parse (op_str o) = Ok o.
Proof. destruct o; reflexivity. Qed.
Lemma op_parse_ok s o : op_parse s = Ok o -> s = op_str o.
Proof.
  unfold op_parse.
  repeat match goal with |- context [String.eqb s ?x] => destruct (String.eqb_spec s x) as [->|?];
    [intro H; inversion H; reflexivity|] end.
  discriminate.
Qed.
Lemma op_parse_err s e : op_parse s = Err e -> e = AttributeError.
Proof.
  unfold op_parse.
  repeat match goal with |- context [String.eqb s ?x] => destruct (String.eqb s x); [discriminate|] end.
  congruence.
Qed.

Lemma last_char_app a c : last_char (a ++ String c "") = Some c.
Proof.
  induction a as [|x a IH]; simpl; [reflexivity|].
  destruct (a ++ String c "") eqn:E; [destruct a; discriminate|]. exact IH.
Qed.
Lemma substring_prefix a b : String.substring 0 (String.length a) (a ++ b) = a.
Proof. induction a as [|x a IH]; simpl; [destruct b; reflexivity|now rewrite IH]. Qed.
Lemma strip_ends_wrap c s d : strip_ends (String c (s ++ String d "")) = s.
Proof.
  unfold strip_ends. simpl. rewrite length_app_str. simpl.
  replace (String.length s + 1 - 1) with (String.length s) by lia. apply substring_prefix.
Qed.

Definition first_not_quote (s : string) : Prop :=
  exists c, first_char s = Some c /\ Ascii.eqb c "'" = false /\ Ascii.eqb c """" = false.
Lemma digit_not_quote c : is_digit c = true -> Ascii.eqb c "'" = false /\ Ascii.eqb c """" = false.
Proof. intro H. split; apply Ascii.eqb_neq; intros ->; discriminate. Qed.
Lemma first_not_quote_signed (neg : bool) s t :
  all_digits s = true -> s <> "" -> first_not_quote ((if neg then "-" else "") ++ s ++ t).
Proof.
  intros Hd Hne. destruct neg; simpl; [exists "-"%char; repeat split|].
  destruct s as [|c s]; [congruence|]. simpl in *. apply andb_true_iff in Hd. destruct Hd as [Hc _].
  exists c. split; [reflexivity|now apply digit_not_quote].
Qed.
Lemma last_char_some s : s <> "" -> exists d, last_char s = Some d.
Proof.
  induction s as [|c s IH]; [congruence|]. intros _. simpl. destruct s as [|c' s]; [now exists c|].
  apply IH. discriminate.
Qed.

Lemma sel_parse_str s : constructible s -> no_space (s_attr s) -> sel_parse (sel_str s) = Ok s.
Proof.
  intros [Hmk Hwf] Hns. destruct s as [a o v]. unfold no_space in Hns. simpl in *. unfold sel_parse, sel_str. simpl.
  change (a ++ String " " (op_str o ++ String " " (quoted v)))
    with (a ++ String " " (op_str o ++ String " " (quoted v))).
  rewrite split1_app by exact Hns. rewrite split1_app by apply op_str_no_space.
  rewrite op_parse_str. cbn [bind].
  destruct v as [t|z|m e]; cbn [quoted py_str].
  - change ("'" ++ t ++ "'") with (String "'" (t ++ "'")). cbn [first_char].
    replace (last_char (String "'" (t ++ "'"))) with (Some "'"%char).
    2:{ symmetry. exact (last_char_app (String "'" t) "'"). }
    cbn [Ascii.eqb andb orb Bool.eqb]. rewrite strip_ends_wrap. exact Hmk.
  - pose proof (str_of_N_digits (Z.abs_N z)) as Hd. pose proof (str_of_N_nonempty (Z.abs_N z)) as Hne.
    assert (Hq : first_not_quote (str_of_Z z)).
    { rewrite str_of_Z_sign, <- (app_nil_r_str (str_of_N _)). now apply first_not_quote_signed. }
    destruct Hq as (c & Hc & Hq1 & Hq2). rewrite Hc.
    destruct (last_char_some (str_of_Z z)) as [d Hd']; [intro E; rewrite E in Hc; discriminate|].
    rewrite Hd', Hq1, Hq2. cbn [andb orb].
    assert (Hdot : has_char "." (str_of_Z z) = false).
    { rewrite str_of_Z_sign, has_char_app, (all_digits_no_char "." _ eq_refl Hd). destruct (z <? 0)%Z; reflexivity. }
    rewrite Hdot, py_int_str. exact Hmk.
  - assert (Hq : first_not_quote (str_of_float m e)).
    { unfold str_of_float.
      set (ds := zeros (S e - String.length (str_of_N (Z.abs_N m))) ++ str_of_N (Z.abs_N m)).
      assert (Hd : all_digits ds = true).
      { unfold ds. rewrite all_digits_app, zeros_digits, str_of_N_digits. reflexivity. }
      assert (Hl : e < String.length ds).
      { unfold ds. rewrite length_app_str, zeros_length. lia. }
      assert (Hk : all_digits (take_str (String.length ds - e) ds) = true).
      { rewrite <- (take_drop_str (String.length ds - e) ds), all_digits_app in Hd.
        apply andb_true_iff in Hd. tauto. }
      apply first_not_quote_signed; [exact Hk|].
      destruct ds as [|c ds]; [simpl in Hl; lia|]. destruct (String.length (String c ds) - e) eqn:E; [lia|discriminate]. }
    destruct Hq as (c & Hc & Hq1 & Hq2). rewrite Hc.
    destruct (last_char_some (str_of_float m e)) as [d Hd']; [intro E; rewrite E in Hc; discriminate|].
    rewrite Hd', Hq1, Hq2. cbn [andb orb].
    assert (Hdot : has_char "." (str_of_float m e) = true).
    { unfold str_of_float. rewrite !has_char_app. simpl. now rewrite !orb_true_r. }
    rewrite Hdot, (py_float_str m e Hwf). exact Hmk.
Qed.

Lemma sel_str_inj s t : constructible s -> constructible t -> no_space (s_attr s) -> no_space (s_attr t) ->
  sel_str s = sel_str t -> s = t.
Proof.
  intros Hs Ht Ns Nt E. pose proof (sel_parse_str s Hs Ns) as H1. pose proof (sel_parse_str t Ht Nt) as H2.
  rewrite E in H1. congruence.
Qed.

(** * The pool (C02) *)
Definition pool_inv (p : pool) : Prop :=
  (forall k ob, In (k, ob) (p_dict p) ->
     k = sel_str (o_sel ob) /\ constructible (o_sel ob) /\ no_space (s_attr (o_sel ob)) /\ o_id ob < p_next p) /\
  (forall k ob k' ob', In (k, ob) (p_dict p) -> In (k', ob') (p_dict p) -> o_id ob = o_id ob' -> k = k' /\ ob = ob') /\
  NoDup (map fst (p_dict p)).
Lemma dict_get_in k d ob : dict_get k d = Some ob -> In (k, ob) d.
Proof.
  induction d as [|[k' o'] d IH]; simpl; [discriminate|].
  destruct (String.eqb_spec k k') as [->|]; [intro H; inversion H; now left|intro H; right; now apply IH].
Qed.
Lemma dict_get_none k d : dict_get k d = None -> ~ In k (map fst d).
Proof.
  induction d as [|[k' o'] d IH]; simpl; [tauto|].
  destruct (String.eqb_spec k k') as [->|Hne]; [discriminate|]. intros H [E|Hin]; [congruence|now apply IH].
Qed.
Lemma dict_get_nodup k ob d : NoDup (map fst d) -> In (k, ob) d -> dict_get k d = Some ob.
Proof.
  induction d as [|[k' o'] d IH]; simpl; [tauto|]. intros Hn [E|Hin].
  - inversion E; subst. now rewrite String.eqb_refl.
  - inversion Hn as [|? ? Hni Hn']; subst. destruct (String.eqb_spec k k') as [->|]; [|now apply IH].
    exfalso. apply Hni. apply in_map_iff. now exists (k', ob).
Qed.
Lemma mk_selector_ok a o v s : mk_selector a o v = Ok s -> s = Sel a o v.
Proof. unfold mk_selector. destruct (is_str v && op_ne o EQUAL && op_ne o NOT_EQUAL); congruence. Qed.

Lemma selector_new_inv p a o v : pool_inv p -> no_space a -> wf_value v ->
  pool_inv (fst (selector_new p a o v)) /\
  match mk_selector a o v with
  | Ok s => exists ob, snd (selector_new p a o v) = Ok ob /\ o_sel ob = s /\
                       In (sel_str s, ob) (p_dict (fst (selector_new p a o v)))
  | Err e => snd (selector_new p a o v) = Err e
  end.
Proof.
  intros HI Hns Hwf. pose proof HI as (I1 & I2 & I3). unfold selector_new.
  destruct (mk_selector a o v) as [s|e] eqn:Emk; [|split; [exact HI|reflexivity]].
  pose proof (mk_selector_ok _ _ _ _ Emk) as Es.
  assert (Hkey : pool_key a o v = sel_str s) by (rewrite Es; reflexivity).
  assert (Hcon : constructible s) by (rewrite Es in *; split; assumption).
  assert (Hns' : no_space (s_attr s)) by (rewrite Es; assumption).
  destruct (dict_get (pool_key a o v) (p_dict p)) as [ob|] eqn:Eg; simpl.
  - split; [exact HI|]. exists ob. split; [reflexivity|].
    apply dict_get_in in Eg. rewrite Hkey in Eg. split; [|assumption].
    destruct (I1 _ _ Eg) as (K1 & K2 & K3 & K4). symmetry. now apply sel_str_inj.
  - rewrite Hkey in Eg. split; [|exists (Obj (p_next p) s); rewrite Hkey; split; [reflexivity|split; [reflexivity|now left]]].
    split; [|split]; cbn [p_dict p_next].
    + intros k ob [E|Hin].
      * inversion E as [[E1 E2]]. cbn [o_sel o_id]. rewrite Hkey in E1. split; [now symmetry|].
        split; [assumption|]. split; [assumption|lia].
      * destruct (I1 _ _ Hin) as (K1 & K2 & K3 & K4). split; [assumption|]. split; [assumption|]. split; [assumption|lia].
    + intros k ob k' ob' [E|Hin] [E'|Hin'] Hid.
      * split; congruence.
      * inversion E as [[E1 E2]]. rewrite <- E2 in Hid. cbn [o_id] in Hid.
        destruct (I1 _ _ Hin') as (_ & _ & _ & K4). lia.
      * inversion E' as [[E1 E2]]. rewrite <- E2 in Hid. cbn [o_id] in Hid.
        destruct (I1 _ _ Hin) as (_ & _ & _ & K4). lia.
      * now apply (I2 k ob k' ob').
    + simpl. rewrite Hkey. constructor; [now apply dict_get_none|assumption].
Qed.
Lemma selector_collect_inv p i : pool_inv p -> pool_inv (selector_collect p i).
Proof.
  intros (I1 & I2 & I3). unfold selector_collect. split; [|split]; simpl.
  - intros k ob H. apply filter_In in H. apply I1. tauto.
  - intros k ob k' ob' H H' E. apply filter_In in H, H'. apply I2; tauto.
  - clear I1 I2. induction (p_dict p) as [|[k ob] d IH]; simpl in *; [constructor|].
    inversion I3 as [|? ? Hni Hn]; subst.
    destruct (negb (o_id ob =? i)); simpl; [|now apply IH]. constructor; [|now apply IH].
    intro H. apply Hni. apply in_map_iff in H. destruct H as (x & E & Hx). apply filter_In in Hx.
    apply in_map_iff. exists x. tauto.
Qed.
Lemma pool_step_inv p e : pool_inv p -> event_ok e -> pool_inv (pool_step p e).
Proof.
  intros HI He. destruct e as [a o v|i]; simpl in *.
  - destruct He as [Hn Hw]. exact (proj1 (selector_new_inv p a o v HI Hn Hw)).
  - now apply selector_collect_inv.
Qed.
Lemma pool_run_inv evs p : pool_inv p -> Forall event_ok evs -> pool_inv (fold_left pool_step evs p).
Proof.
  revert p. induction evs as [|e evs IH]; intros p HI He; simpl; [assumption|].
  inversion He; subst. apply IH; [now apply pool_step_inv|assumption].
Qed.
Lemma pool_after_inv evs : Forall event_ok evs -> pool_inv (pool_after evs).
Proof.
  intro H. apply pool_run_inv; [|assumption].
  split; [|split]; simpl; [intros k ob []|intros k ob k' ob' []|constructor].
Qed.

Lemma selector_new_fields evs a o v :
  Forall event_ok evs -> no_space a -> wf_value v ->
  match snd (selector_new (pool_after evs) a o v) with
  | Ok ob => s_attr (o_sel ob) = a /\ s_op (o_sel ob) = o /\ s_val (o_sel ob) = v
  | Err e => e = ValueError /\ is_str v = true /\ o <> EQUAL /\ o <> NOT_EQUAL
  end.
Proof.
  intros He Hn Hw. destruct (selector_new_inv _ a o v (pool_after_inv evs He) Hn Hw) as [_ H].
  destruct (mk_selector a o v) as [s|e] eqn:E.
  - destruct H as (ob & -> & Hs & _). apply mk_selector_ok in E. rewrite Hs, E. repeat split.
  - rewrite H. unfold mk_selector in E. destruct (is_str v) eqn:Ev; simpl in E; [|discriminate].
    destruct (op_ne o EQUAL) eqn:E1; simpl in E; [|discriminate].
    destruct (op_ne o NOT_EQUAL) eqn:E2; [|discriminate]. inversion E. repeat split; intros ->; discriminate.
Qed.

Definition collects (i : nat) (e : pool_event) : Prop := match e with EvCollect j => j = i | _ => False end.
Lemma alive_kept evs p k ob : pool_inv p -> Forall event_ok evs ->
  Forall (fun e => ~ collects (o_id ob) e) evs -> In (k, ob) (p_dict p) ->
  In (k, ob) (p_dict (fold_left pool_step evs p)).
Proof.
  revert p. induction evs as [|e evs IH]; intros p HI Hok Hnc Hin; simpl; [assumption|].
  inversion Hok; inversion Hnc; subst. apply IH; try assumption; [now apply pool_step_inv|].
  destruct e as [a o v|j]; simpl in *.
  - unfold selector_new. destruct (mk_selector a o v); [|assumption].
    destruct (dict_get (pool_key a o v) (p_dict p)); [assumption|now right].
  - apply filter_In. split; [assumption|]. simpl. apply negb_true_iff, Nat.eqb_neq. congruence.
Qed.
Lemma selector_new_identity evs a o v evs' ob :
  Forall event_ok evs -> no_space a -> wf_value v ->
  snd (selector_new (pool_after evs) a o v) = Ok ob ->
  Forall event_ok evs' -> Forall (fun e => ~ collects (o_id ob) e) evs' ->
  forall a' o' v', no_space a' -> wf_value v' ->
  let later := pool_after (evs ++ EvNew a o v :: evs') in
  forall ob', snd (selector_new later a' o' v') = Ok ob' ->
  (a' = a /\ o' = o /\ v' = v -> ob' = ob) /\ (~ (a' = a /\ o' = o /\ v' = v) -> o_id ob' <> o_id ob).
Proof.
  intros He Hn Hw Hob He' Hnc a' o' v' Hn' Hw' later ob' Hob'.
  pose proof (pool_after_inv evs He) as HI.
  destruct (selector_new_inv _ a o v HI Hn Hw) as [HI2 H].
  destruct (mk_selector a o v) as [s|e] eqn:E; [|rewrite H in Hob; discriminate].
  destruct H as (ob0 & Hob0 & Hs & Hin). rewrite Hob in Hob0. inversion Hob0; subst ob0. clear Hob0.
  assert (Hlater : later = fold_left pool_step evs' (pool_step (pool_after evs) (EvNew a o v))).
  { unfold later, pool_after. now rewrite fold_left_app. }
  assert (HIl : pool_inv later) by (rewrite Hlater; apply pool_run_inv; assumption).
  assert (Hinl : In (sel_str s, ob) (p_dict later)).
  { rewrite Hlater. apply alive_kept; try assumption. }
  destruct (selector_new_inv later a' o' v' HIl Hn' Hw') as [HI3 H3].
  destruct (mk_selector a' o' v') as [s'|e] eqn:E'; [|rewrite H3 in Hob'; discriminate].
  destruct H3 as (ob1 & Hob1 & Hs1 & Hin1). rewrite Hob' in Hob1. inversion Hob1; subst ob1. clear Hob1.
  assert (Hinl' : In (sel_str s, ob) (p_dict (fst (selector_new later a' o' v')))).
  { unfold selector_new. rewrite E'. destruct (dict_get (pool_key a' o' v') (p_dict later)); [assumption|now right]. }
  destruct HI3 as (_ & J2 & J3). apply mk_selector_ok in E, E'. split.
  - intros (-> & -> & ->). assert (s' = s) by congruence. subst s'.
    pose proof (dict_get_nodup _ _ _ J3 Hin1). pose proof (dict_get_nodup _ _ _ J3 Hinl'). congruence.
  - intros Hne Hid. destruct (J2 _ _ _ _ Hin1 Hinl' Hid) as [_ Hob1]. apply Hne. subst. 
    rewrite Hs in Hs1. inversion Hs1. auto.
Qed.

(** * Hash (C05) *)
Lemma canonical_unique m e m' e' :
  1 <= e /\ (e = 1 \/ (m mod 10 <> 0)%Z) -> 1 <= e' /\ (e' = 1 \/ (m' mod 10 <> 0)%Z) ->
  (m * p10 e' = m' * p10 e)%Z -> m = m' /\ e = e'.
Proof.
  assert (Haux : forall m e m' e', 1 <= e -> 1 <= e' -> (e' = 1 \/ (m' mod 10 <> 0)%Z) -> e < e' ->
            (m * p10 e' = m' * p10 e)%Z -> False).
  { clear. intros m e m' e' He He' Hc Hlt E.
    assert (Hp : p10 e' = (p10 e * p10 (e' - e))%Z).
    { unfold p10. rewrite <- Z.pow_add_r by lia. f_equal. lia. }
    assert (Hm : (m' = m * p10 (e' - e))%Z).
    { pose proof (p10_pos e). rewrite Hp in E. nia. }
    destruct Hc as [Hc|Hc]; [lia|]. apply Hc. rewrite Hm.
    replace (e' - e) with (S (e' - e - 1)) by lia. unfold p10. rewrite Nat2Z.inj_succ, Z.pow_succ_r by lia.
    replace (m * (10 * 10 ^ Z.of_nat (e' - e - 1)))%Z with (m * 10 ^ Z.of_nat (e' - e - 1) * 10)%Z by ring.
    apply Z.mod_mul. lia. }
  intros [H1 H2] [H3 H4] E. destruct (Nat.lt_trichotomy e e') as [Hlt|[->|Hlt]].
  - exfalso. now apply (Haux m e m' e').
  - split; [|reflexivity]. pose proof (p10_pos e'). nia.
  - exfalso. apply (Haux m' e' m e); try assumption. now symmetry.
Qed.
Lemma sel_eq_same s t : wf_value (s_val s) -> wf_value (s_val t) -> same_type (s_val s) (s_val t) ->
  sel_eq s t = true -> s = t.
Proof.
  destruct s as [a o v], t as [a' o' v']. unfold sel_eq. simpl. intros Hw Hw' Ht E.
  apply andb_true_iff in E. destruct E as [E Ev]. apply andb_true_iff in E. destruct E as [Ea Eo].
  apply String.eqb_eq in Ea. apply Nat.eqb_eq, op_value_inj in Eo. subst. f_equal.
  destruct v, v'; simpl in *; try contradiction.
  - apply String.eqb_eq in Ev. congruence.
  - apply Z.eqb_eq in Ev. unfold p10 in Ev. simpl in Ev. f_equal. lia.
  - apply Z.eqb_eq in Ev. destruct (canonical_unique m e m0 e0 Hw Hw' Ev). congruence.
Qed.
Lemma hash_same h s t : wf_value (s_val s) -> wf_value (s_val t) -> same_type (s_val s) (s_val t) ->
  sel_eq s t = true -> sel_hash h s = sel_hash h t.
Proof. intros H1 H2 H3 H4. now rewrite (sel_eq_same s t H1 H2 H3 H4). Qed.

(** * Patterns (C08) *)
Lemma prefix_refl_app a b : String.prefix a (a ++ b) = true.
Proof. induction a as [|c a IH]; simpl; [destruct b; reflexivity|]. destruct (ascii_dec c c); [assumption|congruence]. Qed.
Lemma prefix_cut c r s u : has_char c s = false -> String.prefix s (u ++ String c r) = true -> String.prefix s u = true.
Proof.
  revert u. induction s as [|a s IH]; intros u Hh Hp; [destruct u; reflexivity|].
  simpl in Hh. apply orb_false_iff in Hh. destruct Hh as [Hca Hs].
  destruct u as [|b u]; simpl in *.
  - destruct (ascii_dec a c) as [->|]; [|discriminate]. now rewrite Ascii.eqb_refl in Hca.
  - destruct (ascii_dec a b); [|discriminate]. now apply IH.
Qed.
Lemma split_skip sep u cur rest : split_aux sep (String.length u) cur (u ++ rest) = split_aux sep 0 cur rest.
Proof. induction u as [|c u IH]; simpl; [reflexivity|assumption]. Qed.
Lemma split_app c sep x rest : forall cur, has_char c sep = false -> contains (String c sep) x = false ->
  split_aux (String c sep) 0 cur (x ++ String c sep ++ rest) = (cur ++ x) :: split_aux (String c sep) 0 "" rest.
Proof.
  induction x as [|d x IH]; intros cur Hs Hx.
  - change ("" ++ String c sep ++ rest) with (String c (sep ++ rest)). cbn [split_aux].
    change (String c (sep ++ rest)) with (String c sep ++ rest). rewrite prefix_refl_app, app_nil_r_str.
    f_equal. cbn [String.length]. rewrite Nat.sub_succ, Nat.sub_0_r. apply split_skip.
  - change (String d x ++ String c sep ++ rest) with (String d (x ++ String c sep ++ rest)). cbn [split_aux].
    cbn [contains] in Hx. apply orb_false_iff in Hx. destruct Hx as [Hp Hx].
    assert (Hp' : String.prefix (String c sep) (String d (x ++ String c sep ++ rest)) = false).
    { apply not_true_is_false. intro H. simpl in H, Hp. destruct (ascii_dec c d); [|discriminate].
      apply (prefix_cut c (sep ++ rest)) in H; [|assumption]. congruence. }
    rewrite Hp', IH by assumption. now rewrite app_assoc_str.
Qed.
Lemma split_end sep x : forall cur, contains sep x = false -> split_aux sep 0 cur x = [cur ++ x].
Proof.
  induction x as [|d x IH]; intros cur Hx; cbn [split_aux]; [now rewrite app_nil_r_str|].
  cbn [contains] in Hx. apply orb_false_iff in Hx. destruct Hx as [Hp Hx].
  rewrite Hp, IH by assumption. now rewrite app_assoc_str.
Qed.
Lemma contains_app_l c sep u x : has_char c u = false -> contains (String c sep) (u ++ x) = contains (String c sep) x.
Proof.
  induction u as [|d u IH]; simpl; intro H; [reflexivity|]. apply orb_false_iff in H. destruct H as [H1 H2].
  rewrite (IH H2). destruct (ascii_dec c d) as [->|]; [now rewrite Ascii.eqb_refl in H1|reflexivity].
Qed.

Fixpoint joined (p : list selector) : string :=
  match p with [] => "" | [s] => sel_str s | s :: p' => sel_str s ++ ", " ++ joined p' end.
Lemma pattern_str_loop_joined p : p <> [] -> pattern_str_loop p = joined p ++ "]".
Proof.
  induction p as [|s [|t p] IH]; intro H; [congruence|reflexivity|].
  change (pattern_str_loop (s :: t :: p)) with (sel_str s ++ ", " ++ pattern_str_loop (t :: p)).
  rewrite IH by discriminate. change (joined (s :: t :: p)) with (sel_str s ++ ", " ++ joined (t :: p)).
  now rewrite !app_assoc_str.
Qed.
Lemma split_joined p : p <> [] -> Forall (fun s => contains ", " (sel_str s) = false) p ->
  py_split ", " (joined p) = map sel_str p.
Proof.
  unfold py_split. induction p as [|s [|t p] IH]; intros Hne H; [congruence| |].
  - inversion H; subst. cbn [joined map]. now rewrite split_end.
  - inversion H; subst. change (joined (s :: t :: p)) with (sel_str s ++ ", " ++ joined (t :: p)).
    change ", " with (String "," " "). rewrite split_app by (assumption || reflexivity).
    change (String "," " ") with ", ". rewrite IH by (assumption || discriminate). reflexivity.
Qed.
Lemma sel_str_nonempty s : sel_str s <> "".
Proof. unfold sel_str. destruct (s_attr s); discriminate. Qed.
Lemma joined_nonempty p : p <> [] -> joined p <> "".
Proof.
  destruct p as [|s [|t p]]; intro H; [congruence|apply sel_str_nonempty|].
  change (joined (s :: t :: p)) with (sel_str s ++ ", " ++ joined (t :: p)).
  pose proof (sel_str_nonempty s). destruct (sel_str s); [congruence|discriminate].
Qed.
Lemma map_res_parse p : Forall constructible p -> Forall (fun s => no_space (s_attr s)) p ->
  map_res sel_parse (map sel_str p) = Ok p.
Proof.
  induction p as [|s p IH]; intros H1 H2; simpl; [reflexivity|]. inversion H1; inversion H2; subst.
  rewrite sel_parse_str by assumption. cbn [bind]. now rewrite IH.
Qed.
Lemma sort_sorted_id p : StronglySorted slt p -> sort_by sltb p = p.
Proof.
  induction 1 as [|x l Hs IH Hf]; simpl; [reflexivity|]. rewrite IH. destruct l as [|y l]; [reflexivity|].
  simpl. inversion Hf as [|? ? Hxy _]; subst. unfold sltb, cltb. unfold lt_ in Hxy.
  now rewrite (proj1 (cmp_lt_gt _ scmp scmp_sym x y) Hxy).
Qed.
Lemma dedup_sorted_id l : forall last, StronglySorted slt (match last with Some x => x :: l | None => l end) ->
  dedup_consecutive last l = l.
Proof.
  induction l as [|e l IH]; intros last Hs; simpl; [reflexivity|].
  assert (Hne : match last with None => true | Some x => sel_ne x e end = true).
  { destruct last as [x|]; [|reflexivity]. inversion Hs as [|? ? _ Hf]; inversion Hf as [|? ? Hxe _]; subst.
    rewrite sel_ne_neg, sel_eq_cmp. unfold lt_ in Hxe. now rewrite Hxe. }
  rewrite Hne. f_equal. apply IH. destruct last; [now inversion Hs|assumption].
Qed.
Lemma pattern_parse_str p : sorted_strictly p ->
  Forall constructible p -> Forall (fun s => no_space (s_attr s)) p ->
  Forall (fun s => contains ", " (sel_str s) = false) p ->
  pattern_parse (pattern_str p) = Ok p.
Proof.
  intros Hs Hc Hn Hsep.
  unfold pattern_parse, pattern_str. destruct p as [|s p]; [reflexivity|].
  rewrite pattern_str_loop_joined by discriminate.
  change ("[" ++ joined (s :: p) ++ "]") with (String "[" (joined (s :: p) ++ String "]" "")).
  rewrite strip_ends_wrap.
  assert (E : String.eqb (String "[" (joined (s :: p) ++ String "]" "")) "[]" = false).
  { apply String.eqb_neq. intro E. inversion E as [E']. pose proof (joined_nonempty (s :: p) ltac:(discriminate)) as Hne.
    destruct (joined (s :: p)) as [|c j]; [congruence|]. inversion E' as [[Ec Ej]]. destruct j; discriminate. }
  rewrite E, split_joined by (assumption || discriminate).
  rewrite map_res_parse by assumption. cbn [bind]. now rewrite pattern_init_same.
Qed.

(** * Subgroups (C09) *)
Lemma subgroup_parse_str g : let p := g_desc g in
  sorted_strictly p ->
  Forall constructible (g_target g :: p) -> Forall (fun s => no_space (s_attr s)) (g_target g :: p) ->
  Forall (fun s => contains ", " (sel_str s) = false) p ->
  contains ", Target: " (pattern_str p) = false -> contains ", Target: " (sel_str (g_target g)) = false ->
  subgroup_parse (subgroup_str g) = Ok g.
Proof.
  intros p Hs Hc Hn Hsep Hd Ht. inversion Hc; inversion Hn; subst.
  unfold subgroup_parse, subgroup_str.
  assert (E : py_split ", Target: " ("Description: " ++ pattern_str (g_desc g) ++ ", Target: " ++ sel_str (g_target g))
              = [("Description: " ++ pattern_str (g_desc g)); sel_str (g_target g)]).
  { unfold py_split. rewrite <- app_assoc_str.
    change ", Target: " with (String "," " Target: ") at 1 2.
    rewrite split_app; [|reflexivity|].
    - rewrite split_end by assumption. reflexivity.
    - rewrite contains_app_l by reflexivity. assumption. }
  rewrite E, sel_parse_str by assumption. cbn [bind].
  change (drop_str 13 ("Description: " ++ pattern_str (g_desc g))) with (pattern_str (g_desc g)).
  fold p. rewrite pattern_parse_str by assumption. cbn [bind]. unfold p. now destruct g.
Qed.
