(** C34: what a second fit of the same object does. *)
From Verif Require Import SDMapModel SDMapStarModel VLSDModel VLSDTrace FPGrowthProofs3 SDMapProofs SDMapStarProofs IDSDModel IDSDFit MiningSpec Properties_SDMap Properties_SDMapStar Properties_VLSD Properties_IDSD.
From Coq Require Import Lia QArith.
Open Scope string_scope.
Open Scope list_scope.
Open Scope nat_scope.

(** * Functions that commute with a change of the state *)
Definition rmap {A B} (g : A -> B) (r : res A) : res B := match r with Ok x => Ok (g x) | Err e => Err e end.
Lemma fold_commutes : forall {A St} (f : St -> A -> res St) (g : St -> St) l st, (forall s a, In a l -> f (g s) a = rmap g (f s a)) -> fold_res f l (g st) = rmap g (fold_res f l st).
Proof.
  intros A St f g l. induction l as [|a l IH]; intros st H; cbn [fold_res]; [reflexivity|]. rewrite H by (left; auto). destruct (f st a) as [s|e]; cbn [bind rmap]; [|reflexivity]. apply IH. intros s0 a0 I. apply H. right; auto.
Qed.
Lemma fold_keeps : forall {A St} (P : St -> Prop) (f : St -> A -> res St) l st st', (forall s a s', P s -> f s a = Ok s' -> P s') -> P st -> fold_res f l st = Ok st' -> P st'.
Proof.
  intros A St P f l. induction l as [|a l IH]; intros st st' H Hp E; cbn [fold_res] in E; [injection E as <-; exact Hp|]. destruct (f st a) as [s|e] eqn:F; cbn [bind] in E; [|discriminate]. exact (IH s st' H (H _ _ _ Hp F) E).
Qed.
Lemma single_commutes : forall {St} (visit : St -> pattern * (Z * Z) -> res St) g t alpha st beta, (forall s v, visit (g s) v = rmap g (visit s v)) ->
  single_path_visit visit t alpha (g st) beta = rmap g (single_path_visit visit t alpha st beta).
Proof. intros St visit g t alpha st beta H. unfold single_path_visit. destruct (most_unfrequent _ _); cbn [bind rmap]; auto. destruct (sel_assoc _ _); cbn [rmap]; auto. Qed.
Lemma fpg_commutes : forall St (visit : St -> pattern * (Z * Z) -> res St) g hdr mtp mfp mn, (forall s v, visit (g s) v = rmap g (visit s v)) ->
  forall fuel t alpha st, fpg visit hdr mtp mfp mn fuel t alpha (g st) = rmap g (fpg visit hdr mtp mfp mn fuel t alpha st).
Proof.
  intros St visit g hdr mtp mfp mn H. induction fuel as [|f IH]; intros t alpha st; cbn [fpg]; [reflexivity|]. destruct (there_is_a_single_path t) as [[|]|]; cbn [bind rmap]; auto.
  - destruct (remove_empty _) as [combos|]; cbn [bind rmap]; auto. apply fold_commutes. intros s a _. apply single_commutes; auto.
  - apply fold_commutes. intros s a _. destruct (sel_assoc a (t_header t)); cbn [rmap]; auto. rewrite H. destruct (visit s _) as [s1|]; cbn [bind rmap]; auto.
    destruct (generate_conditional_fp_tree _ _ _ _ _); cbn [bind rmap]; auto. destruct (is_empty _); cbn [rmap]; auto.
Qed.
Lemma fpg_keeps : forall {St} (P : St -> Prop) (visit : St -> pattern * (Z * Z) -> res St) hdr mtp mfp mn, (forall s v s', P s -> visit s v = Ok s' -> P s') ->
  forall fuel t alpha st st', P st -> fpg visit hdr mtp mfp mn fuel t alpha st = Ok st' -> P st'.
Proof.
  intros St P visit hdr mtp mfp mn H. induction fuel as [|f IH]; intros t alpha st st' Hp; cbn [fpg]; [discriminate|]. destruct (there_is_a_single_path t) as [[|]|]; cbn [bind]; try discriminate.
  - destruct (remove_empty _) as [combos|]; cbn [bind]; [|discriminate]. apply fold_keeps; auto. intros s a s' Hs. unfold single_path_visit. destruct (most_unfrequent _ _); cbn [bind]; [|discriminate]. destruct (sel_assoc _ _); [|discriminate]. eauto.
  - apply fold_keeps; auto. intros s a s' Hs. destruct (sel_assoc a (t_header t)); [|discriminate]. destruct (visit s _) as [s1|] eqn:E; cbn [bind]; [|discriminate]. apply H in E; auto.
    destruct (generate_conditional_fp_tree _ _ _ _ _); cbn [bind]; [|discriminate]. destruct (is_empty _); [intros X; injection X as <-; auto|eauto].
Qed.

(** * SDMap *)
Section SDMapAgain.
Context {V : Type}.
Variable c : sd_config V.
Definition sd_shift (x y : nat) (f : option (list (record V))) (st : sd_state V) : sd_state V :=
  SDS (x + st_selected st) (y + st_unselected st) (if c_write c then st_file st else f).
Lemma handle_shift : forall tsel TP FP x y f st v, handle_individual_result c tsel TP FP (sd_shift x y f st) v = rmap (sd_shift x y f) (handle_individual_result c tsel TP FP st v).
Proof.
  intros tsel TP FP x y f st [p [tp fp]]. unfold handle_individual_result. destruct (c_measure c tp fp TP FP) as [q|]; cbn [bind rmap]; [|reflexivity].
  f_equal. unfold sd_shift. destruct (c_reaches c q); cbn [st_selected st_unselected st_file]; rewrite ?Nat.add_succ_r; destruct (c_write c); reflexivity.
Qed.
Lemma handle_file : forall tsel TP FP st v st', st_file st <> None -> handle_individual_result c tsel TP FP st v = Ok st' -> st_file st' <> None.
Proof.
  intros tsel TP FP st [p [tp fp]] st' H. unfold handle_individual_result. destruct (c_measure c tp fp TP FP) as [q|]; cbn [bind]; [|discriminate]. intros E. injection E as <-.
  destruct (c_reaches c q); cbn [st_file]; auto. destruct (c_write c); auto. destruct (st_file st); [discriminate|auto].
Qed.
End SDMapAgain.
(** A fit of an object in any state [st] does what the fit of a new object does: it raises the same error; otherwise it adds the same numbers to
    the counters and writes the same file, or leaves the file as it was if a new object would write none. *)
Definition as_new {V} (st st' r : sd_state V) : Prop :=
  st_selected st' = st_selected st + st_selected r /\ st_unselected st' = st_unselected st + st_unselected r /\
  st_file st' = match st_file r with Some l => Some l | None => st_file st end.
Theorem C34_sdmap_as_new : forall V (c : sd_config V) df tcol tval st,
  match sdmap_fit c (SDS 0 0 None) df tcol tval with
  | Ok r => exists st', sdmap_fit c st df tcol tval = Ok st' /\ as_new st st' r
  | Err e => sdmap_fit c st df tcol tval = Err e
  end.
Proof.
  intros V c df tcol tval st. unfold sdmap_fit. destruct (negb (all_nominal df)); [reflexivity|]. destruct (generate_set_of_frequent_selectors _ _ _ _ _ _) as [d|]; cbn [bind]; [|reflexivity].
  destruct (build_tree _ _ _ _ _) as [t|]; cbn [bind]; [|reflexivity]. destruct (is_empty t).
  { exists st. split; [reflexivity|]. unfold as_new. cbn [st_selected st_unselected st_file]. rewrite !Nat.add_0_r. auto. }
  destruct (target_mask _ _ _) as [mask|]; cbn [bind]; [|reflexivity]. destruct (population df mask) as [TP FP]. rewrite !fpgrowth_fpg.
  set (i0 := if c_write c then SDS _ _ (Some []) else SDS 0 0 None). set (i1 := if c_write c then _ else st).
  assert (E : i1 = sd_shift c (st_selected st) (st_unselected st) (st_file st) i0).
  { unfold i1, i0, sd_shift. destruct (c_write c) eqn:W; cbn [st_selected st_unselected st_file]; rewrite !Nat.add_0_r; [reflexivity|destruct st; reflexivity]. }
  assert (E0 : i0 = sd_shift c 0 0 None i0) by (unfold i0, sd_shift; destruct (c_write c); reflexivity).
  rewrite E, (fpg_commutes _ _ (sd_shift c (st_selected st) (st_unselected st) (st_file st))) by (intros; apply handle_shift).
  pose proof (fpg_commutes _ _ (sd_shift c 0 0 None) t_sorted (c_min_tp c) (c_min_fp c) (c_min_n c) (handle_shift c (Sel tcol EQUAL (VStr tval)) TP FP 0 0 None) (S (length (t_header t))) t [] i0) as E1. rewrite <- E0 in E1.
  destruct (fpg _ _ _ _ _ _ _ _ i0) as [r|e] eqn:R; cbn [rmap] in *; [|reflexivity]. exists (sd_shift c (st_selected st) (st_unselected st) (st_file st) r). split; [reflexivity|].
  unfold as_new. cbn [sd_shift st_selected st_unselected st_file]. split; [reflexivity|]. split; [reflexivity|]. destruct (c_write c) eqn:W.
  - assert (N : st_file r <> None); [|destruct (st_file r); congruence].
    revert R. apply (fpg_keeps (fun s => st_file s <> None)); [intros s v s' Hs Hv; exact (handle_file c _ _ _ s v s' Hs Hv)|]. unfold i0. cbn [st_file]. discriminate.
  - injection E1 as E1. rewrite E1. unfold sd_shift. rewrite W. cbn [st_file]. reflexivity.
Qed.

(** * VLSD: the file is always written again *)
Theorem C34_vlsd_as_new : forall Seq (impl : vl_impl Seq) V (c : vl_config V) df tcol tval st,
  match vlsd_fit impl c vlsd_new df tcol tval with
  | Ok r => exists st', vlsd_fit impl c st df tcol tval = Ok st' /\ vs_selected st' = vs_selected st + vs_selected r /\ vs_unselected st' = vs_unselected st + vs_unselected r /\
      vs_file st' = match vs_file r with Some l => Some l | None => vs_file st end /\ (vc_write c = true -> vs_file r <> None)
  | Err e => vlsd_fit impl c st df tcol tval = Err e
  end.
Proof.
  intros Seq impl V c df tcol tval st. destruct (fit_trace impl c df tcol tval) as (t & TP & FP & L & r & H). rewrite !H. unfold ended.
  set (shift := fun s : vl_state Seq V => VS (vs_selected st + vs_selected s) (vs_unselected st + vs_unselected s) (if vc_write c then vs_file s else vs_file st)).
  assert (E : cleared c st = shift (cleared c vlsd_new)).
  { unfold shift, cleared, vlsd_new. destruct (vc_write c); cbn [vs_selected vs_unselected vs_file]; rewrite !Nat.add_0_r; [reflexivity|destruct st; reflexivity]. }
  rewrite E, (fold_commutes _ shift).
  2:{ intros s v _. unfold vl_handle. destruct (vc_measure c _ _ TP FP) as [q|]; cbn [bind rmap]; [|reflexivity]. unfold shift. destruct (vc_reaches c q); cbn [vs_selected vs_unselected vs_file]; rewrite ?Nat.add_succ_r; destruct (vc_write c); reflexivity. }
  destruct (fold_res (vl_handle c t TP FP) L (cleared c vlsd_new)) as [r0|e] eqn:F; cbn [bind rmap]; [|reflexivity]. destruct r as [e|]; [reflexivity|]. exists (shift r0). split; [reflexivity|].
  apply handle_fold in F. destruct F as [_ F]. unfold shift, cleared, vlsd_new in *. cbn [vs_selected vs_unselected vs_file]. split; [reflexivity|]. split; [reflexivity|].
  destruct (vc_write c); rewrite F; cbn [vs_file]; split; congruence.
Qed.

(** * SDMapStar: the same for objects with the same list of best qualities; without limit the list is never used *)
Section StarAgain.
Context {V : Type}.
Variable c : star_config V.
Variable tsel : selector.
Variables TP FP : Z.
Definition star_shift (x y p q : nat) (f : option (list (record V))) (k : list V) (st : star_state V) : star_state V :=
  StarS (sd_shift (sc_base c) x y f (ss_base st)) (if (0 <? sc_num c)%Z then ss_k st else k) (p + ss_pruned st) (q + ss_cpruned st).
Variables (x y p q : nat) (f : option (list (record V))) (k : list V).
Notation shift := (star_shift x y p q f k).
Lemma star_handle_shift : forall st v, star_handle c tsel TP FP (shift st) v = rmap shift (star_handle c tsel TP FP st v).
Proof.
  intros st v. unfold star_handle. cbn [star_shift ss_base]. rewrite handle_shift. destruct (handle_individual_result _ _ _ _ _ _); reflexivity.
Qed.
Lemma update_k_shift : forall st tp fp, (0 < sc_num c)%Z -> update_k c TP FP (shift st) tp fp = rmap shift (update_k c TP FP st tp fp).
Proof.
  intros st tp fp L. unfold update_k. destruct (sc_kquality c tp fp TP FP) as [z|]; cbn [bind rmap]; [|reflexivity]. unfold star_shift. apply Z.ltb_lt in L. rewrite L. cbn [ss_k ss_base ss_pruned ss_cpruned].
  destruct (Z.of_nat (length (ss_k st)) <? sc_num c)%Z; [reflexivity|]. destruct (ss_k st) as [|w l] eqn:Ek; [reflexivity|]. cbn [rmap]. destruct (sc_lt c w z); cbn [ss_k ss_base ss_pruned ss_cpruned]; rewrite ?Ek; reflexivity.
Qed.
Definition smap {A} (g : star_state V -> star_state V) (r : A * star_state V) : A * star_state V := (fst r, g (snd r)).
Lemma worst_shift : forall st, (0 < sc_num c)%Z -> worst_k (shift st) = worst_k st.
Proof. intros st L. unfold worst_k, star_shift. apply Z.ltb_lt in L. rewrite L. reflexivity. Qed.
Lemma star_visit_shift : forall st v, star_visit c tsel TP FP (shift st) v = rmap (smap shift) (star_visit c tsel TP FP st v).
Proof.
  intros st v. unfold star_visit. destruct (0 <? sc_num c)%Z eqn:L.
  - assert (L' := L). apply Z.ltb_lt in L'. destruct v as [pt [tp fp]]. rewrite update_k_shift by auto. destruct (update_k c TP FP st tp fp) as [s1|]; cbn [bind rmap]; [|reflexivity].
    destruct (sc_oe c tp fp TP FP) as [oe|]; cbn [bind rmap]; [|reflexivity]. rewrite worst_shift by auto. destruct (worst_k s1) as [w|]; cbn [bind rmap]; [|reflexivity].
    destruct (sc_lt c oe w); cbn [rmap].
    + unfold smap, star_shift. cbn [fst snd ss_base ss_k ss_pruned ss_cpruned]. rewrite L, Nat.add_succ_r. reflexivity.
    + rewrite star_handle_shift. destruct (star_handle c tsel TP FP s1 _); reflexivity.
  - rewrite star_handle_shift. destruct (star_handle c tsel TP FP st v); reflexivity.
Qed.
Lemma star_conditional_shift : forall st t beta, star_conditional c TP FP (shift st) t beta = rmap (smap shift) (star_conditional c TP FP st t beta).
Proof.
  intros st t beta. unfold star_conditional. destruct (0 <? sc_num c)%Z eqn:L.
  - assert (L' := L). apply Z.ltb_lt in L'. rewrite worst_shift by auto. destruct (worst_k st) as [w|]; cbn [bind rmap]; [|reflexivity]. destruct (generate_conditional_fp_tree_star _ _ _ _ _ _) as [r|]; cbn [bind rmap]; [|reflexivity].
    unfold smap, star_shift. cbn [fst snd ss_base ss_k ss_pruned ss_cpruned]. rewrite L, Nat.add_assoc. reflexivity.
  - destruct (generate_conditional_fp_tree _ _ _ _ _); reflexivity.
Qed.
Lemma star_fpgrowth_shift : forall fuel t alpha st, star_fpgrowth c tsel TP FP fuel t alpha (shift st) = rmap shift (star_fpgrowth c tsel TP FP fuel t alpha st).
Proof.
  induction fuel as [|fu IH]; intros t alpha st; cbn [star_fpgrowth]; [reflexivity|]. destruct (there_is_a_single_path t) as [[|]|]; cbn [bind rmap]; auto.
  - destruct (remove_empty _) as [combos|]; cbn [bind rmap]; auto. apply fold_commutes. intros s a _. apply single_commutes. intros s0 v. rewrite star_visit_shift. destruct (star_visit c tsel TP FP s0 v); reflexivity.
  - destruct (star_order c TP FP t) as [order|]; cbn [bind rmap]; auto. apply fold_commutes. intros s a _. destruct (sel_assoc a (t_header t)) as [e|]; cbn [rmap]; auto. rewrite star_visit_shift.
    destruct (star_visit c tsel TP FP s _) as [[h s1]|]; cbn [bind rmap smap fst snd]; auto. destruct h; cbn [rmap]; auto. rewrite star_conditional_shift.
    destruct (star_conditional c TP FP s1 t _) as [[ct s2]|]; cbn [bind rmap smap fst snd]; auto. destruct (is_empty ct); cbn [rmap]; auto.
Qed.
Lemma star_file : forall st v s', st_file (ss_base st) <> None -> star_visit c tsel TP FP st v = Ok s' -> st_file (ss_base (snd s')) <> None.
Proof.
  intros st v s' H. assert (K : forall s r, st_file (ss_base s) <> None -> star_handle c tsel TP FP s v = Ok r -> st_file (ss_base r) <> None).
  { intros s r Hs. unfold star_handle. destruct (handle_individual_result _ _ _ _ _ _) as [b|] eqn:E; cbn [bind]; [|discriminate]. intros X. injection X as <-. cbn [ss_base]. apply handle_file in E; auto. }
  unfold star_visit. destruct (0 <? sc_num c)%Z.
  - destruct v as [pt [tp fp]]. destruct (update_k c TP FP st tp fp) as [s1|] eqn:U; cbn [bind]; [|discriminate].
    assert (H1 : st_file (ss_base s1) <> None).
    { revert U. unfold update_k. destruct (sc_kquality _ _ _ _ _); cbn [bind]; [|discriminate]. destruct (_ <? _)%Z; [intros X; injection X as <-; auto|]. destruct (ss_k st); [discriminate|]. intros X. injection X as <-. destruct (sc_lt _ _ _); auto. }
    destruct (sc_oe c tp fp TP FP); cbn [bind]; [|discriminate]. destruct (worst_k s1); cbn [bind]; [|discriminate]. destruct (sc_lt _ _ _); [intros X; injection X as <-; auto|].
    destruct (star_handle c tsel TP FP s1 _) as [s2|] eqn:E; cbn [bind]; [|discriminate]. intros X. injection X as <-. cbn [snd]. apply K in E; auto.
  - destruct (star_handle c tsel TP FP st v) as [s2|] eqn:E; cbn [bind]; [|discriminate]. intros X. injection X as <-. cbn [snd]. apply K in E; auto.
Qed.
Lemma star_fpgrowth_file : forall fuel t alpha st st', st_file (ss_base st) <> None -> star_fpgrowth c tsel TP FP fuel t alpha st = Ok st' -> st_file (ss_base st') <> None.
Proof.
  induction fuel as [|fu IH]; intros t alpha st st' H; cbn [star_fpgrowth]; [discriminate|]. destruct (there_is_a_single_path t) as [[|]|]; cbn [bind]; try discriminate.
  - destruct (remove_empty _) as [combos|]; cbn [bind]; [|discriminate]. apply (fold_keeps (fun s => st_file (ss_base s) <> None)); auto. intros s a s' Hs. unfold single_path_visit. destruct (most_unfrequent _ _); cbn [bind]; [|discriminate].
    destruct (sel_assoc _ _); [|discriminate]. destruct (star_visit c tsel TP FP s _) as [r|] eqn:E; cbn [bind]; [|discriminate]. intros X. injection X as <-. apply star_file in E; auto.
  - destruct (star_order c TP FP t) as [order|]; cbn [bind]; [|discriminate]. apply (fold_keeps (fun s => st_file (ss_base s) <> None)); auto. intros s a s' Hs. destruct (sel_assoc a (t_header t)) as [he|]; [|discriminate].
    destruct (star_visit c tsel TP FP s _) as [[h s1]|] eqn:E; cbn [bind]; [|discriminate]. apply star_file in E; auto. cbn [snd] in E. destruct h; [|intros X; injection X as <-; auto].
    destruct (star_conditional c TP FP s1 t _) as [[ct s2]|] eqn:C; cbn [bind]; [|discriminate].
    assert (H2 : st_file (ss_base s2) <> None).
    { revert C. unfold star_conditional. destruct (0 <? sc_num c)%Z; [destruct (worst_k s1); cbn [bind]; [|discriminate]; destruct (generate_conditional_fp_tree_star _ _ _ _ _ _); cbn [bind]; [|discriminate]
        |destruct (generate_conditional_fp_tree _ _ _ _ _); cbn [bind]; [|discriminate]]; intros X; injection X as <- <-; auto. }
    destruct (is_empty ct); [intros X; injection X as <-; auto|]. apply IH; auto.
Qed.
End StarAgain.
(** [k] is the list of best qualities the object starts with ([] if new). *)
Theorem C34_sdmapstar_as_new : forall V (c : star_config V) df tcol tval st k, (sc_num c <= 0)%Z \/ ss_k st = k ->
  match star_fit c (StarS (SDS 0 0 None) k 0 0) df tcol tval with
  | Ok r => exists st', star_fit c st df tcol tval = Ok st' /\ as_new (ss_base st) (ss_base st') (ss_base r) /\
      ss_pruned st' = ss_pruned st + ss_pruned r /\ ss_cpruned st' = ss_cpruned st + ss_cpruned r /\ ((0 < sc_num c)%Z -> ss_k st' = ss_k r)
  | Err e => star_fit c st df tcol tval = Err e
  end.
Proof.
  intros V c df tcol tval st k K. unfold star_fit. destruct (negb (all_nominal df)); [reflexivity|]. destruct (target_mask _ _ _) as [mask|]; cbn [bind]; [|reflexivity]. destruct (population df mask) as [TP FP].
  destruct (generate_set_of_frequent_selectors _ _ _ _ _ _) as [d|]; cbn [bind]; [|reflexivity].
  destruct (build_tree _ _ _ _ _) as [t|]; cbn [bind]; [|reflexivity]. destruct (is_empty t).
  { exists st. split; [reflexivity|]. unfold as_new. cbn [ss_base ss_k ss_pruned ss_cpruned st_selected st_unselected st_file]. rewrite !Nat.add_0_r. repeat split; auto. destruct K; [lia|auto]. }
  set (i0 := if c_write (sc_base c) then StarS (SDS (st_selected (ss_base (StarS (SDS 0 0 None) k 0 0))) _ _) _ _ _ else StarS (SDS 0 0 None) k 0 0). set (i1 := if c_write (sc_base c) then _ else st).
  assert (E : i1 = star_shift c (st_selected (ss_base st)) (st_unselected (ss_base st)) (ss_pruned st) (ss_cpruned st) (st_file (ss_base st)) (ss_k st) i0).
  { unfold i1, i0, star_shift, sd_shift. destruct (c_write (sc_base c)) eqn:W; cbn [ss_base ss_k ss_pruned ss_cpruned st_selected st_unselected st_file]; rewrite !Nat.add_0_r; rewrite ?W;
      (destruct (0 <? sc_num c)%Z eqn:L; [apply Z.ltb_lt in L; destruct K as [K|K]; [lia|]; rewrite <- K|]); [reflexivity|reflexivity|destruct st as [[a b f] kk p q]; reflexivity|destruct st as [[a b f] kk p q]; reflexivity]. }
  assert (E0 : i0 = star_shift c 0 0 0 0 None k i0) by (unfold i0, star_shift, sd_shift; destruct (c_write (sc_base c)), (0 <? sc_num c)%Z; reflexivity).
  rewrite E, star_fpgrowth_shift. set (tsel := Sel tcol EQUAL (VStr tval)).
  pose proof (star_fpgrowth_shift c tsel TP FP 0 0 0 0 None k (S (length (t_header t))) t [] i0) as E1. rewrite <- E0 in E1.
  destruct (star_fpgrowth c tsel TP FP _ t [] i0) as [r|e] eqn:R; cbn [rmap] in *; [|reflexivity].
  eexists. split; [reflexivity|]. unfold as_new. cbn [star_shift sd_shift ss_base ss_k ss_pruned ss_cpruned st_selected st_unselected st_file].
  split; [split; [reflexivity|split; [reflexivity|]]|split; [reflexivity|split; [reflexivity|]]].
  - destruct (c_write (sc_base c)) eqn:W.
    + assert (N : st_file (ss_base r) <> None); [|destruct (st_file (ss_base r)); congruence]. apply star_fpgrowth_file in R; auto. unfold i0. cbn [ss_base st_file]. discriminate.
    + injection E1 as E1. rewrite E1. unfold star_shift, sd_shift. rewrite W. cbn [ss_base st_file]. reflexivity.
  - intros L. apply Z.ltb_lt in L. rewrite L. reflexivity.
Qed.

(** * IDSD: the same list of subgroups, and the same numbers added to the counters, when the same data is fitted again *)
Definition i_shift (x y z : Z) (st : istate) : istate := IState (is_top st) (x + is_visited st) (y + is_nonunique st) (z + is_pruned st) (is_app st).
Lemma visit_shift : forall c v k p a x y z st, visit_node c v k p a (i_shift x y z st) = rmap (fun r => (i_shift x y z (fst r), snd r)) (visit_node c v k p a st).
Proof.
  intros c v k p a x y z st. unfold visit_node. cbn [i_shift is_top is_visited is_nonunique is_pruned is_app]. destruct (coverage_value _ _) as [cov|]; cbn [bind rmap]; [|reflexivity].
  assert (P : forall t a1 a2 b1 b2 c1 c2 d (g : bool), a1 = a2 -> b1 = b2 -> c1 = c2 -> Ok (IState t a1 b1 c1 d, g) = Ok (IState t a2 b2 c2 d, g)) by (intros; subst; reflexivity).
  destruct (Qeq_bool cov 0); [cbn [rmap fst snd i_shift is_top is_visited is_nonunique is_pruned is_app]; apply P; [destruct (length p =? k)| |destruct (Z.of_nat k =? ic_max c)%Z]; cbn [is_visited is_nonunique is_pruned]; lia|].
  destruct (match rev (is_top st) with [] => false | _ => _ end); [cbn [rmap fst snd i_shift is_top is_visited is_nonunique is_pruned is_app]; apply P; [destruct (length p =? k)| |destruct (Z.of_nat k =? ic_max c)%Z]; cbn [is_visited is_nonunique is_pruned]; lia|].
  destruct (length p =? k).
  - destruct (idsd_entry c v p a); cbn [bind rmap fst snd i_shift is_top is_visited is_nonunique is_pruned is_app]; [apply P; cbn [is_visited is_nonunique is_pruned]; lia|reflexivity].
  - cbn [rmap fst snd i_shift is_top is_visited is_nonunique is_pruned is_app]. apply P; cbn [is_visited is_nonunique is_pruned]; lia.
Qed.
Lemma children_shift : forall c v k x y z sels p a st, grow_children c v k sels p a (i_shift x y z st) = rmap (i_shift x y z) (grow_children c v k sels p a st).
Proof.
  intros c v k x y z. induction sels as [|s rest IH]; intros p a st; cbn [grow_children]; [reflexivity|]. destruct (appearance _ _) as [b|]; cbn [bind rmap]; [|reflexivity]. rewrite visit_shift.
  destruct (visit_node c v k _ _ st) as [[s1 go]|]; cbn [bind rmap fst snd]; [|reflexivity]. destruct go.
  - rewrite IH. destruct (grow_children c v k rest _ _ s1) as [s2|]; cbn [bind rmap]; [apply IH|reflexivity].
  - cbn [bind]. apply IH.
Qed.
Lemma tree_shift : forall c v k x y z sels p a st, grow_tree c v k sels p a (i_shift x y z st) = rmap (i_shift x y z) (grow_tree c v k sels p a st).
Proof.
  intros c v k x y z sels p a st. unfold grow_tree. rewrite visit_shift. destruct (visit_node c v k p a st) as [[s1 go]|]; cbn [bind rmap fst snd]; [|reflexivity]. destruct go; [apply children_shift|reflexivity].
Qed.
Lemma app_set_same : forall d s a, app_get d s = Some a -> app_set d s a = d.
Proof. induction d as [|[k b] d IH]; intros s a H; cbn [app_get app_set] in *; [discriminate|]. destruct (sel_eq k s); [injection H as ->; reflexivity|rewrite IH; auto]. Qed.
Lemma set_all_same : forall l d, (forall s a, In (s, a) l -> app_get d s = Some a) -> set_all d l = d.
Proof.
  induction l as [|[s a] l IH]; intros d H; unfold set_all; cbn [fold_left fst snd]; [reflexivity|]. rewrite app_set_same by (apply H; left; auto). apply IH. intros s' a' I. apply H. right; auto.
Qed.
Theorem C34_idsd_again : forall c st df tcol tval st1, idsd_input c st df tcol tval -> idsd_fit c st df tcol tval = Ok st1 ->
  exists st2, idsd_fit c st1 df tcol tval = Ok st2 /\ is_top st2 = is_top st1 /\ idsd_lines tcol tval st2 = idsd_lines tcol tval st1 /\
    (is_visited st2 - is_visited st1 = is_visited st1 - is_visited st)%Z /\ (is_nonunique st2 - is_nonunique st1 = is_nonunique st1 - is_nonunique st)%Z /\
    (is_pruned st2 - is_pruned st1 = is_pruned st1 - is_pruned st)%Z.
Proof.
  intros c st df tcol tval st1 (HC & (cells & Hcol & Hval) & HN & HI) E.
  destruct (fit_exact c df tcol tval HC cells Hcol Hval HN st HI) as (st1' & E' & _ & A & _). rewrite E in E'. injection E' as <-.
  revert E. unfold idsd_fit. destruct (negb (all_nominal df)); [discriminate|]. rewrite Hcol. destruct (negb _); [discriminate|]. destruct (target_mask _ _ _) as [mask|]; cbn [bind]; [|discriminate]. cbv zeta.
  set (D := reduce_categories (ic_cats c) df tcol) in *. assert (CD : categorical D) by (apply reduce_categorical; auto).
  assert (I : idsd_appearances D tcol (is_app st1) = is_app st1).
  { rewrite A. rewrite (appearances_set_all D tcol (set_all _ _)) || rewrite !appearances_set_all. apply set_all_same. intros s a J. apply set_all_get; auto; rewrite masks_keys; [apply sels_nodup|apply sels_nominal]; auto. }
  rewrite I, A. set (d := idsd_appearances D tcol (is_app st)) in *. set (v := IEnv _ _ _ d).
  set (F := fun (s : istate) (complexity : nat) => grow_tree _ _ _ _ _ _ s). intros E.
  replace (IState [] (is_visited st1) (is_nonunique st1) (is_pruned st1) d) with (i_shift (is_visited st1 - is_visited st) (is_nonunique st1 - is_nonunique st) (is_pruned st1 - is_pruned st) (IState [] (is_visited st) (is_nonunique st) (is_pruned st) d))
    by (unfold i_shift; cbn [is_top is_visited is_nonunique is_pruned is_app]; f_equal; lia).
  rewrite (fold_commutes F (i_shift _ _ _)) by (intros s k _; apply tree_shift). rewrite E. cbn [rmap]. eexists. split; [reflexivity|]. unfold idsd_lines. cbn [i_shift is_top is_visited is_nonunique is_pruned is_app].
  split; [reflexivity|]. split; [reflexivity|]. repeat split; lia.
Qed.
(** The hypotheses hold on a small dataset; SDMapStar with k = 2 starts its second fit with the two qualities of the first one. *)
Example C34_as_new_nonvacuous : exists r st' st2, sdmap_fit toy_config (SDS 0 0 None) toy "class" "p" = Ok r /\ st_file r <> None /\
  sdmap_fit toy_config (SDS 7 1 (Some [])) toy "class" "p" = Ok st' /\ st_selected st' = 10 /\ st_selected r = 3 /\
  star_fit (ps_config (-(100)) 2) (StarS (SDS 0 0 None) [inject_Z 1; inject_Z 2] 0 0) rows_d "class" "p" = Ok st2 /\ ss_pruned st2 <> 0.
Proof. eexists _, _, _. split; [vm_compute; reflexivity|]. split; [discriminate|]. split; [vm_compute; reflexivity|]. split; [reflexivity|]. split; [reflexivity|]. split; [vm_compute; reflexivity|]. vm_compute. discriminate. Qed.
Example C34_idsd_nonvacuous : let c := ex_config 3 (-1) 0 (XFin 0) in exists st1 st2, idsd_input c idsd_new ex_data "class" "p" /\ idsd_fit c idsd_new ex_data "class" "p" = Ok st1 /\ idsd_fit c st1 ex_data "class" "p" = Ok st2 /\
  is_top st1 <> [] /\ is_visited st2 = (2 * is_visited st1)%Z /\ is_visited st1 <> 0%Z.
Proof. eexists _, _. split; [apply ex_input; lia|]. split; [vm_compute; reflexivity|]. split; [vm_compute; reflexivity|]. split; [discriminate|]. split; [vm_compute; reflexivity|]. vm_compute. discriminate. Qed.
Print Assumptions C34_sdmap_as_new. Print Assumptions C34_vlsd_as_new. Print Assumptions C34_sdmapstar_as_new. Print Assumptions C34_idsd_again.
