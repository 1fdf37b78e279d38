(** Theorems C88: other values in the cells. *)
From Coq Require Import String.
From Verif Require Import CoreFrame FPTreeProofs SDMapProofs SDMapStarModel VerticalSpec VerticalModel VLSDModel BSDModel QualityModel MiningProofs ReorderProofs Properties_Quality Properties_SDMap Properties_SDMapStar Properties_VLSD Properties_BSD Properties_BSDBest.
From Verif Require Export Properties_Monotone.
From Coq Require Import Permutation Lia Setoid.
Open Scope string_scope.
Open Scope list_scope.
Open Scope nat_scope.

(** * Specification *)
(** The same columns; in each of them two rows of [df'] have equal cells iff they have in [df]: the values are renamed, another way for each
    column, different values to different values. *)
Definition relabelled (df df' : dataframe) : Prop :=
  df_n df' = df_n df /\ (forall a, has_column df' a <-> has_column df a) /\
  forall a i j, i < df_n df -> j < df_n df -> (cell df' i a = cell df' j a <-> cell df i a = cell df j a).
(** [tval'] marks the rows of [df'] that [tval] marks in [df]. *)
Definition same_target (df df' : dataframe) (tcol tval tval' : string) : Prop :=
  forall i, i < df_n df -> (cell df' i tcol = Some (VStr tval') <-> cell df i tcol = Some (VStr tval)).
(** The same columns in the same order, and the same rows covered. *)
Definition twin (df df' : dataframe) (X X' : list selector) : Prop :=
  map s_attr X' = map s_attr X /\ forall i, i < df_n df -> forallb (row_matchesb df' i) X' = forallb (row_matchesb df i) X.
Definition same_numbers {V} (r r' : record V) : Prop :=
  r_quality r' = r_quality r /\ r_tp r' = r_tp r /\ r_fp r' = r_fp r /\ r_TP r' = r_TP r /\ r_FP r' = r_FP r.
(** The line [r'] of [df'] says of the renamed description what [r] says. *)
Definition same_line {V} (df df' : dataframe) (tval' : string) (r r' : record V) : Prop :=
  same_numbers r r' /\ twin df df' (g_desc (r_subgroup r)) (g_desc (r_subgroup r')) /\ g_target (r_subgroup r') = Sel (s_attr (g_target (r_subgroup r))) EQUAL (VStr tval').

Lemma relabelled_sym : forall df df', relabelled df df' -> relabelled df' df.
Proof. intros df df' (E & C & H). split; [auto|]. split; [intros a; symmetry; apply C|]. intros a i j Hi Hj. rewrite E in *. symmetry. apply H; auto. Qed.
Lemma target_sym : forall df df' tcol tval tval', df_n df' = df_n df -> same_target df df' tcol tval tval' -> same_target df' df tcol tval' tval.
Proof. intros df df' tcol tval tval' E H i Hi. rewrite E in Hi. symmetry. apply H; auto. Qed.
Lemma twin_sym : forall df df' X X', df_n df' = df_n df -> twin df df' X X' -> twin df' df X' X.
Proof. intros df df' X X' E [A H]. split; [auto|]. intros i Hi. rewrite E in Hi. symmetry. apply H; auto. Qed.

Section Relabelled.
  Variables (df df' : dataframe) (tcol tval tval' : string).
  Hypotheses (Hcat : categorical df) (Hcat' : categorical df') (HR : relabelled df df') (HT : same_target df df' tcol tval tval').
  Let t := Sel tcol EQUAL (VStr tval).
  Let t' := Sel tcol EQUAL (VStr tval').
  Lemma bool_iff : forall b c : bool, (b = true <-> c = true) -> b = c.
  Proof. intros [] [] H; auto; [symmetry; apply H; auto|apply H; auto]. Qed.
  Lemma target_row : forall i, i < df_n df -> row_matchesb df' i t' = row_matchesb df i t.
  Proof. intros i Hi. apply bool_iff. rewrite (row_match_cell df' Hcat'), (row_match_cell df Hcat) by (split; reflexivity). apply HT. exact Hi. Qed.
  Lemma twin_counts : forall X X', twin df df' X X' -> tp_of df' t' X' = tp_of df t X /\ fp_of df' t' X' = fp_of df t X /\ coverage df' X' = coverage df X.
  Proof.
    intros X X' [_ H]. unfold tp_of, fp_of, pos_rows, neg_rows, coverage, VerticalSpec.matches_all. rewrite (proj1 HR).
    split; [|split]; repeat (apply f_equal); apply filter_ext_in; intros i I; apply in_seq in I; rewrite (H i) by lia; try rewrite target_row by lia; reflexivity.
  Qed.
  Lemma twin_totals : TP_of df' tcol tval' = TP_of df tcol tval /\ FP_of df' tcol tval' = FP_of df tcol tval.
  Proof. destruct (twin_counts [] []) as (A & B & _); [split; reflexivity|]. split; [exact A|exact B]. Qed.
  Lemma twin_quality : forall V (m : Z -> Z -> Z -> Z -> res V) X X', twin df df' X X' -> quality m df' tcol tval' X' = quality m df tcol tval X.
  Proof. intros V m X X' H. unfold quality. destruct (twin_counts X X' H) as (A & B & _). destruct twin_totals as [C D]. fold t t'. rewrite A, B, C, D. reflexivity. Qed.
  Lemma twin_line : forall V X X' (q : V), twin df df' X X' -> same_line df df' tval' (line_of df tcol tval X q) (line_of df' tcol tval' X' q).
  Proof.
    intros V X X' q H. destruct (twin_counts X X' H) as (A & B & _). destruct twin_totals as [C D].
    split; [split; [reflexivity|split; [exact A|split; [exact B|split; [exact C|exact D]]]]|]. split; [exact H|reflexivity].
  Qed.
  (** The description with the values of row [i] of [df']. *)
  Definition at_row (i : nat) (X : list selector) : list selector :=
    map (fun s => match cell df' i (s_attr s) with Some v => Sel (s_attr s) EQUAL v | None => s end) X.
  Lemma text_cell : forall i a, i < df_n df -> has_column df a -> exists w, cell df' i a = Some (VStr w).
  Proof.
    intros i a Hi Ha. destruct HR as (E & C & _). apply C in Ha. destruct Ha as [c Hc]. destruct Hcat' as (W & _ & S0).
    assert (I : In (a, c) (df_cols df')).
    { revert Hc. generalize (df_cols df') as cols. induction cols as [|[d e] cols IH]; cbn [col_get]; [discriminate|]. destruct (String.eqb a d) eqn:X; [|right; auto].
      apply String.eqb_eq in X. intros G. injection G as ->. left. congruence. }
    unfold cell. rewrite Hc. destruct (nth_error c i) as [v|] eqn:N.
    - specialize (S0 a c v I (nth_error_In _ _ N)). destruct v; try discriminate S0. eexists; reflexivity.
    - apply nth_error_None in N. rewrite (W a c I) in N. lia.
  Qed.
  Definition plain_desc (X : list selector) : Prop := forall s, In s X -> s_op s = EQUAL /\ is_str (s_val s) = true /\ has_column df (s_attr s).
  Lemma at_attrs : forall i X, map s_attr (at_row i X) = map s_attr X.
  Proof. intros i X. unfold at_row. rewrite map_map. apply map_ext. intros s. destruct (cell df' i (s_attr s)); reflexivity. Qed.
  Lemma at_twin : forall i X, i < df_n df -> plain_desc X -> forallb (row_matchesb df i) X = true -> twin df df' X (at_row i X).
  Proof.
    intros i X Hi P M. split; [apply at_attrs|]. intros j Hj. revert P M. induction X as [|s X IH]; intros P M; [reflexivity|]. cbn [at_row map forallb] in *. apply andb_prop in M. destruct M as [Ms M].
    change (map _ X) with (at_row i X). rewrite IH; [|intros x I; apply P; right; exact I|exact M]. f_equal. destruct (P s (or_introl eq_refl)) as (O & St & Hc).
    destruct (text_cell i (s_attr s) Hi Hc) as [w Ew]. rewrite Ew. apply bool_iff. rewrite (row_match_cell df' Hcat'), (row_match_cell df Hcat) by (split; auto). rewrite (row_match_cell df Hcat) in Ms by (split; auto). cbn [s_attr s_val].
    rewrite <- Ew, <- Ms. apply HR; auto.
  Qed.
  Lemma at_sorted : forall i X, i < df_n df -> plain_desc X -> NoDup (map s_attr X) -> sorted_strictly X -> sorted_strictly (at_row i X).
  Proof.
    intros i X Hi P. unfold sorted_strictly. induction X as [|s X IH]; intros N S; [constructor|]. cbn [map] in N. apply NoDup_cons_iff in N. destruct N as [N1 N]. apply StronglySorted_inv in S. destruct S as [S1 S].
    cbn [at_row map]. change (map _ X) with (at_row i X). constructor; [apply IH; auto; intros x I; apply P; right; exact I|].
    apply Forall_forall. intros y Y. apply in_map_iff in Y. destruct Y as (x & <- & Ix). rewrite Forall_forall in S. specialize (S x Ix).
    assert (D : String.eqb (s_attr s) (s_attr x) = false).
    { apply String.eqb_neq. intros E. apply N1. rewrite E. apply in_map. exact Ix. }
    unfold sel_lt in S. rewrite D in S. cbn [negb] in S.
    destruct (text_cell i (s_attr s) Hi) as [w Ew]; [apply P; left; reflexivity|]. destruct (text_cell i (s_attr x) Hi) as [v Ev]; [apply P; right; exact Ix|].
    rewrite Ew, Ev. unfold sel_lt. cbn [s_attr]. rewrite D. exact S.
  Qed.
  Lemma plain_of : forall X, description df tcol X -> plain_desc X.
  Proof. intros X (_ & _ & D) s I. destruct (D s I) as (A & B & _ & C). auto. Qed.
  Lemma covered_row : forall X, 1 <= coverage df X -> exists i, i < df_n df /\ forallb (row_matchesb df i) X = true.
  Proof.
    intros X C. unfold coverage in C. destruct (filter _ _) as [|i l] eqn:F; [cbn [length] in C; lia|]. exists i.
    assert (I : In i (i :: l)) by (left; reflexivity). rewrite <- F in I. apply filter_In in I. destruct I as [I M]. apply in_seq in I. split; [lia|exact M].
  Qed.
  Lemma attrs_nodup : forall X, description df tcol X -> 1 <= coverage df X -> NoDup (map s_attr X).
  Proof.
    intros X D C. apply (C27_one_selector_per_column df tcol tval None None (Some (tp_of df t X + fp_of df t X)%Z) X Hcat). split; [exact D|]. split; [exact C|]. cbn. fold t. lia.
  Qed.
  Lemma at_description : forall i X, i < df_n df -> description df tcol X -> 1 <= coverage df X -> description df' tcol (at_row i X).
  Proof.
    intros i X Hi D C. pose proof (plain_of X D) as P. pose proof (attrs_nodup X D C) as N. destruct D as (D1 & D2 & D3). split; [destruct X; [congruence|discriminate]|]. split; [apply at_sorted; auto|].
    intros s I. apply in_map_iff in I. destruct I as (x & <- & Ix). destruct (D3 x Ix) as (A & B & E & F). destruct (text_cell i (s_attr x) Hi F) as [w Ew]. rewrite Ew. cbn [s_op s_val s_attr is_str].
    split; [reflexivity|]. split; [reflexivity|]. split; [exact E|]. apply HR. exact F.
  Qed.
  (** Every description with a covered row has its twin, *)
  Lemma twin_exists : forall X, candidate df tcol X -> exists X', candidate df' tcol X' /\ twin df df' X X' /\
    forall s', In s' X' -> exists s, In s X /\ twin df df' [s] [s'].
  Proof.
    intros X [D C]. destruct (covered_row X C) as (i & Hi & M). exists (at_row i X). pose proof (at_twin i X Hi (plain_of X D) M) as T. split; [|split; [exact T|]].
    - split; [apply at_description; auto|]. destruct (twin_counts X _ T) as (_ & _ & ->). exact C.
    - intros s' I. apply in_map_iff in I. destruct I as (s & <- & Is). exists s. split; [exact Is|]. apply (at_twin i [s] Hi); [intros x [<-|[]]; apply (plain_of X D); exact Is|].
      cbn [forallb]. rewrite forallb_forall in M. rewrite (M s Is). reflexivity.
  Qed.
  (** and is determined by it. *)
  Lemma twin_injective : forall X Y X', candidate df tcol X -> candidate df tcol Y -> twin df df' X X' -> twin df df' Y X' -> X = Y.
  Proof.
    intros X Y X' [DX CX] [DY _] [AX RX] [AY RY]. destruct (covered_row X CX) as (i & Hi & MX). assert (MY : forallb (row_matchesb df i) Y = true) by (rewrite <- RY, RX by exact Hi; exact MX).
    assert (A : map s_attr X = map s_attr Y) by congruence. pose proof (plain_of X DX) as PX. pose proof (plain_of Y DY) as PY. clear -A MX MY PX PY Hcat Hcat' HR HT. revert Y A MY PY.
    induction X as [|s X IH]; intros [|y Y] A MY PY; try discriminate A; [reflexivity|]. cbn [map] in A. assert (A1 : s_attr s = s_attr y) by congruence. assert (A2 : map s_attr X = map s_attr Y) by congruence.
    cbn [forallb] in MX, MY. apply andb_prop in MX, MY. destruct MX as [M1 MX], MY as [M2 MY]. f_equal.
    - destruct (PX s (or_introl eq_refl)) as (O1 & S1 & _), (PY y (or_introl eq_refl)) as (O2 & S2 & _). rewrite (row_match_cell df Hcat) in M1, M2 by (split; auto). rewrite A1 in M1.
      destruct s as [a o v], y as [b p w]. cbn in *. congruence.
    - apply IH; auto; intros x I; [apply PX|apply PY]; right; exact I.
  Qed.
End Relabelled.

Lemma inj_length : forall A B (R : A -> B -> Prop) l m, NoDup l -> (forall x, In x l -> exists y, In y m /\ R x y) ->
  (forall x z y, In x l -> In z l -> R x y -> R z y -> x = z) -> length l <= length m.
Proof.
  intros A B R l. induction l as [|x l IH]; intros m N H I; [cbn; lia|]. apply NoDup_cons_iff in N. destruct N as [N1 N].
  destruct (H x (or_introl eq_refl)) as (y & Iy & Ry). apply in_split in Iy. destruct Iy as (m1 & m2 & ->).
  assert (L : length l <= length (m1 ++ m2)); [|rewrite app_length in *; cbn [length] in *; lia]. apply IH; [exact N| |].
  - intros z Iz. destruct (H z (or_intror Iz)) as (u & Iu & Ru). exists u. split; [|exact Ru]. apply in_app_or in Iu. destruct Iu as [Iu|[<-|Iu]]; try (apply in_or_app; auto; fail).
    exfalso. apply N1. rewrite (I x z y); auto; [left; reflexivity|right; exact Iz].
  - intros u z v Iu Iz. apply I; right; auto.
Qed.

(** * SDMap *)
Section Halves.
  Variables (V : Type) (c : sd_config V) (s0 : sd_state V) (df df' : dataframe) (tcol tval tval' : string).
  Hypotheses (Hcat : categorical df) (Hcat' : categorical df') (Hk : distinct_keys df tcol) (Hk' : distinct_keys df' tcol) (Hcol : has_column df tcol) (Hw : c_write c = true)
    (HR : relabelled df df') (HT : same_target df df' tcol tval tval') (Hn : sdmap_new c = Ok s0).
  Lemma col' : has_column df' tcol.
  Proof. apply HR. exact Hcol. Qed.
  Lemma frequent_twin : forall a b n X, frequent df tcol tval a b n X -> exists X', frequent df' tcol tval' a b n X' /\ twin df df' X X'.
  Proof.
    intros a b n X (D & C & S). destruct (twin_exists df df' tcol tval tval' Hcat Hcat' HR HT X (conj D C)) as (X' & (D' & C') & T & _).
    exists X'. split; [|exact T]. split; [exact D'|]. split; [exact C'|]. destruct (twin_counts df df' tcol tval tval' Hcat Hcat' HR HT X X' T) as (-> & -> & _). exact S.
  Qed.
  Lemma fit_half : forall b, sdmap_fit c s0 df' tcol tval' = Ok b -> exists a, sdmap_fit c s0 df tcol tval = Ok a.
  Proof.
    intros b E. apply (proj1 (C27_errors V c s0 df tcol tval s0 Hcat Hk Hcol Hn)). intros X HX. destruct (frequent_twin _ _ _ X HX) as (X' & HX' & T).
    rewrite <- (twin_quality df df' tcol tval tval' Hcat Hcat' HR HT V _ X X' T). exact (proj1 (proj1 (C27_errors V c s0 df' tcol tval' s0 Hcat' Hk' col' Hn)) (ex_intro _ b E) X' HX').
  Qed.
  Lemma lines_half : forall a b, sdmap_fit c s0 df tcol tval = Ok a -> sdmap_fit c s0 df' tcol tval' = Ok b ->
    (forall r, In r (lines_in a) -> exists r', In r' (lines_in b) /\ same_line df df' tval' r r') /\ st_selected a <= st_selected b /\ visited_nodes a <= visited_nodes b.
  Proof.
    intros a b Ea Eb. destruct (sdmap_lines V c s0 df tcol tval a Hcat Hk Hcol Hw Hn Ea) as [_ La]. destruct (sdmap_lines V c s0 df' tcol tval' b Hcat' Hk' col' Hw Hn Eb) as [_ Lb]. split.
    - intros r Ir. apply La in Ir. destruct Ir as (X & q & HX & Eq & R & ->). destruct (frequent_twin _ _ _ X HX) as (X' & HX' & T). exists (line_of df' tcol tval' X' q). split.
      + apply Lb. exists X', q. rewrite (twin_quality df df' tcol tval tval' Hcat Hcat' HR HT V _ X X' T). auto.
      + apply (twin_line df df' tcol tval tval' Hcat Hcat' HR HT V X X' q T).
    - destruct (C28_counters V c s0 df tcol tval a Hcat Hk Hcol Hn Ea) as (al & go & Na & HA & Ng & HG & -> & -> & _).
      destruct (C28_counters V c s0 df' tcol tval' b Hcat' Hk' col' Hn Eb) as (al' & go' & Na' & HA' & Ng' & HG' & -> & -> & _).
      assert (Cd : forall X, In X al -> candidate df tcol X) by (intros X I; apply HA in I; destruct I as (D & C & _); split; auto).
      split; apply (inj_length _ _ (twin df df')); auto.
      + intros X I. apply HG in I. destruct I as (I & q & Eq & R). apply HA in I. destruct (frequent_twin _ _ _ X I) as (X' & HX' & T). exists X'. split; [|exact T].
        apply HG'. split; [apply HA'; exact HX'|]. exists q. rewrite (twin_quality df df' tcol tval tval' Hcat Hcat' HR HT V _ X X' T). auto.
      + intros X Z Y IX IZ. apply (twin_injective df df' tcol Hcat); apply Cd; [apply HG in IX; apply IX|apply HG in IZ; apply IZ].
      + intros X I. apply HA in I. destruct (frequent_twin _ _ _ X I) as (X' & HX' & T). exists X'. split; [apply HA'; exact HX'|exact T].
      + intros X Z Y IX IZ. apply (twin_injective df df' tcol Hcat); apply Cd; auto.
  Qed.
End Halves.
(** The report of the renamed dataset is the renamed report: both calls succeed or neither, with the same counters, and each line of one has
    a line of the other with the same numbers whose description covers the same rows with selectors on the same columns. *)
Theorem C88_sdmap : forall V (c : sd_config V) s0 df df' tcol tval tval', categorical df -> categorical df' -> distinct_keys df tcol -> distinct_keys df' tcol -> has_column df tcol ->
  c_write c = true -> relabelled df df' -> same_target df df' tcol tval tval' -> sdmap_new c = Ok s0 ->
  ((exists a, sdmap_fit c s0 df tcol tval = Ok a) <-> (exists b, sdmap_fit c s0 df' tcol tval' = Ok b)) /\
  forall a b, sdmap_fit c s0 df tcol tval = Ok a -> sdmap_fit c s0 df' tcol tval' = Ok b ->
    st_selected b = st_selected a /\ visited_nodes b = visited_nodes a /\
    (forall r, In r (lines_in a) -> exists r', In r' (lines_in b) /\ same_line df df' tval' r r') /\
    (forall r', In r' (lines_in b) -> exists r, In r (lines_in a) /\ same_line df' df tval r' r).
Proof.
  intros V c s0 df df' tcol tval tval' H1 H1' H2 H2' H3 W HR HT N. pose proof (relabelled_sym _ _ HR) as HR'. pose proof (target_sym _ _ _ _ _ (proj1 HR) HT) as HT'. assert (H3' : has_column df' tcol) by (apply HR; exact H3).
  split; [split|].
  - intros [a E]. exact (fit_half V c s0 df' df tcol tval' tval H1' H1 H2' H2 H3' HR' HT' N a E).
  - intros [b E]. exact (fit_half V c s0 df df' tcol tval tval' H1 H1' H2 H2' H3 HR HT N b E).
  - intros a b Ea Eb. destruct (lines_half V c s0 df df' tcol tval tval' H1 H1' H2 H2' H3 W HR HT N a b Ea Eb) as (L & S & X).
    destruct (lines_half V c s0 df' df tcol tval' tval H1' H1 H2' H2 H3' W HR' HT' N b a Eb Ea) as (L' & S' & X'). split; [lia|]. split; [lia|]. split; [exact L|exact L'].
Qed.
(** SDMapStar without limit. *)
Theorem C88_sdmapstar : forall V (c : star_config V) s0 df df' tcol tval tval', categorical df -> categorical df' -> distinct_keys df tcol -> distinct_keys df' tcol -> has_column df tcol ->
  sc_num c = 0%Z -> c_write (sc_base c) = true -> relabelled df df' -> same_target df df' tcol tval tval' -> star_new c = Ok s0 ->
  ((exists a, star_fit c s0 df tcol tval = Ok a) <-> (exists b, star_fit c s0 df' tcol tval' = Ok b)) /\
  forall a b, star_fit c s0 df tcol tval = Ok a -> star_fit c s0 df' tcol tval' = Ok b ->
    st_selected (ss_base b) = st_selected (ss_base a) /\ visited_nodes (ss_base b) = visited_nodes (ss_base a) /\
    (forall r, In r (lines_in (ss_base a)) -> exists r', In r' (lines_in (ss_base b)) /\ same_line df df' tval' r r') /\
    (forall r', In r' (lines_in (ss_base b)) -> exists r, In r (lines_in (ss_base a)) /\ same_line df' df tval r' r).
Proof.
  intros V c s0 df df' tcol tval tval' H1 H1' H2 H2' H3 Z0 W HR HT N. assert (H3' : has_column df' tcol) by (apply HR; exact H3).
  destruct (star_plain V c s0 df tcol tval H1 H2 H3 N Z0) as (M & A & A'). destruct (star_plain V c s0 df' tcol tval' H1' H2' H3' N Z0) as (_ & B & B').
  destruct (C88_sdmap V _ _ df df' tcol tval tval' H1 H1' H2 H2' H3 W HR HT M) as [F G]. split; [split|].
  - intros [a E]. destruct (A a E) as (a0 & Ea & _). destruct (proj1 F (ex_intro _ a0 Ea)) as [b0 Eb]. exact (B' b0 Eb).
  - intros [b E]. destruct (B b E) as (b0 & Eb & _). destruct (proj2 F (ex_intro _ b0 Eb)) as [a0 Ea]. exact (A' a0 Ea).
  - intros a b Ea Eb. destruct (A a Ea) as (a0 & Ea0 & La & Sa & Va). destruct (B b Eb) as (b0 & Eb0 & Lb & Sb & Vb). destruct (G a0 b0 Ea0 Eb0) as (S & X & L & L'). rewrite Sa, Sb, Va, Vb.
    split; [exact S|]. split; [exact X|]. split; intros r I.
    + apply La in I. destruct (L r I) as (r' & I' & T). exists r'. split; [apply Lb; exact I'|exact T].
    + apply Lb in I. destruct (L' r I) as (r' & I' & T). exists r'. split; [apply La; exact I'|exact T].
Qed.
Print Assumptions C88_sdmap. Print Assumptions C88_sdmapstar.

(** * VLSD, in any representation *)
Lemma reaches_twin : forall V (c : vl_config V) df df' tcol tval tval' X X', categorical df -> categorical df' -> relabelled df df' -> same_target df df' tcol tval tval' ->
  twin df df' X X' -> value_reaches c df' tcol tval' X' -> value_reaches c df tcol tval X.
Proof.
  intros V c df df' tcol tval tval' X X' H1 H1' HR HT T [q [E R]]. exists q. split; [|exact R]. rewrite <- E. symmetry. apply (twin_quality df df' tcol tval tval' H1 H1' HR HT V _ X X' T).
Qed.
(** An estimate that is sound on one of the datasets is sound on the other. *)
Lemma sound_half : forall V (c : vl_config V) df df' tcol tval tval', categorical df -> categorical df' -> relabelled df df' -> same_target df df' tcol tval tval' ->
  sound_estimate c df tcol tval -> sound_estimate c df' tcol tval'.
Proof.
  intros V c df df' tcol tval tval' H1 H1' HR HT Se X' Y' o KX KY Inc VX EY. pose proof (relabelled_sym _ _ HR) as HR'. pose proof (target_sym _ _ _ _ _ (proj1 HR) HT) as HT'.
  destruct KX as [DX CX], KY as [DY CY]. destruct (covered_row df' X' CX) as (i & Hi & MX).
  assert (MY : forallb (row_matchesb df' i) Y' = true) by (apply forallb_forall; rewrite forallb_forall in MX; intros s I; apply MX, Inc, I).
  pose proof (at_twin df' df H1' H1 HR' i X' Hi (plain_of df' tcol X' DX) MX) as TX. pose proof (at_twin df' df H1' H1 HR' i Y' Hi (plain_of df' tcol Y' DY) MY) as TY.
  apply (Se (at_row df i X') (at_row df i Y') o).
  - split; [apply (at_description df' df tcol tval' H1' H1 HR' i X' Hi DX CX)|]. destruct (twin_counts df' df tcol tval' tval H1' H1 HR' HT' _ _ TX) as (_ & _ & ->). exact CX.
  - split; [apply (at_description df' df tcol tval' H1' H1 HR' i Y' Hi DY CY)|]. destruct (twin_counts df' df tcol tval' tval H1' H1 HR' HT' _ _ TY) as (_ & _ & ->). exact CY.
  - intros s I. apply in_map_iff in I. destruct I as (x & <- & Ix). apply in_map_iff. exists x. split; [reflexivity|apply Inc, Ix].
  - apply (reaches_twin V c df df' tcol tval tval' _ X' H1 H1' HR HT); [apply twin_sym; [symmetry; apply HR|exact TX]|exact VX].
  - rewrite (twin_quality df' df tcol tval' tval H1' H1 HR' HT' V _ Y' _ TY). exact EY.
Qed.
Theorem C88_sound_estimate : forall V (c : vl_config V) df df' tcol tval tval', categorical df -> categorical df' -> relabelled df df' -> same_target df df' tcol tval tval' ->
  (sound_estimate c df' tcol tval' <-> sound_estimate c df tcol tval).
Proof.
  intros V c df df' tcol tval tval' H1 H1' HR HT. split; apply sound_half; auto; [apply relabelled_sym; exact HR|apply (target_sym _ _ _ _ _ (proj1 HR) HT)].
Qed.
Print Assumptions C88_sound_estimate.
Theorem C88_vlsd : forall Seq impl rows Seq' impl' rows', representation Seq impl rows -> representation Seq' impl' rows' ->
  forall V (c : vl_config V) df df' tcol tval tval' a b, categorical df -> categorical df' -> has_column df tcol -> vc_write c = true ->
  relabelled df df' -> same_target df df' tcol tval tval' -> sound_estimate c df tcol tval ->
  vlsd_fit impl c vlsd_new df tcol tval = Ok a -> vlsd_fit impl' c vlsd_new df' tcol tval' = Ok b ->
  exists la lb, vs_file a = Some la /\ vs_file b = Some lb /\
    (forall l, In l (map vr_line la) -> exists l', In l' (map vr_line lb) /\ same_line df df' tval' l l') /\
    (forall l', In l' (map vr_line lb) -> exists l, In l (map vr_line la) /\ same_line df' df tval l' l).
Proof.
  assert (G : forall Seq impl rows Seq' impl' rows', representation Seq impl rows -> representation Seq' impl' rows' ->
    forall V (c : vl_config V) df df' tcol tval tval' a b, categorical df -> categorical df' -> has_column df tcol -> vc_write c = true ->
    relabelled df df' -> same_target df df' tcol tval tval' -> sound_estimate c df tcol tval -> sound_estimate c df' tcol tval' ->
    vlsd_fit impl c vlsd_new df tcol tval = Ok a -> vlsd_fit impl' c vlsd_new df' tcol tval' = Ok b ->
    exists la lb, vs_file a = Some la /\ vs_file b = Some lb /\
      (forall l, In l (map vr_line la) -> exists l', In l' (map vr_line lb) /\ same_line df df' tval' l l')).
  { intros Seq impl rows Seq' impl' rows' R R' V c df df' tcol tval tval' a b H1 H1' H3 W HR HT Se Se' Ea Eb. assert (H3' : has_column df' tcol) by (apply HR; exact H3).
    destruct (C29_sound_and_complete _ _ _ R V c df tcol tval _ a H1 H3 W Se Ea) as (la & Fa & _ & La).
    destruct (C29_sound_and_complete _ _ _ R' V c df' tcol tval' _ b H1' H3' W Se' Eb) as (lb & Fb & _ & Lb).
    exists la, lb. split; [exact Fa|]. split; [exact Fb|]. intros l I. apply La in I. destruct I as (X & q & K & Eq & Rq & ->).
    destruct (twin_exists df df' tcol tval tval' H1 H1' HR HT X K) as (X' & K' & T & _). exists (line_of df' tcol tval' X' q). split.
    - apply Lb. exists X', q. rewrite (twin_quality df df' tcol tval tval' H1 H1' HR HT V _ X X' T). auto.
    - apply (twin_line df df' tcol tval tval' H1 H1' HR HT V X X' q T). }
  intros Seq impl rows Seq' impl' rows' R R' V c df df' tcol tval tval' a b H1 H1' H3 W HR HT Se Ea Eb. pose proof (sound_half V c df df' tcol tval tval' H1 H1' HR HT Se) as Se'. assert (H3' : has_column df' tcol) by (apply HR; exact H3).
  destruct (G _ _ _ _ _ _ R R' V c df df' tcol tval tval' a b H1 H1' H3 W HR HT Se Se' Ea Eb) as (la & lb & Fa & Fb & L).
  destruct (G _ _ _ _ _ _ R' R V c df' df tcol tval' tval b a H1' H1 H3' W (relabelled_sym _ _ HR) (target_sym _ _ _ _ _ (proj1 HR) HT) Se' Se Eb Ea) as (lb' & la' & Fb' & Fa' & L').
  rewrite Fa in Fa'. injection Fa' as <-. rewrite Fb in Fb'. injection Fb' as <-. exists la, lb. auto.
Qed.
(** Where the measure and the estimate are defined on the candidates of one dataset, both calls succeed. *)
Theorem C88_vlsd_succeeds : forall Seq impl rows Seq' impl' rows', representation Seq impl rows -> representation Seq' impl' rows' ->
  forall V (c : vl_config V) df df' tcol tval tval' st st', categorical df -> categorical df' -> has_column df tcol ->
  relabelled df df' -> same_target df df' tcol tval tval' ->
  (forall X, candidate df tcol X -> exists q o, quality (vc_measure c) df tcol tval X = Ok q /\ quality (vc_oe c) df tcol tval X = Ok o) ->
  (exists a, vlsd_fit impl c st df tcol tval = Ok a) /\ (exists b, vlsd_fit impl' c st' df' tcol tval' = Ok b).
Proof.
  intros Seq impl rows Seq' impl' rows' R R' V c df df' tcol tval tval' st st' H1 H1' H3 HR HT H. assert (H3' : has_column df' tcol) by (apply HR; exact H3).
  split; [apply (C29_errors _ _ _ R V c df tcol tval st H1 H3); exact H|]. apply (C29_errors _ _ _ R' V c df' tcol tval' st' H1' H3'). intros X' K'.
  pose proof (relabelled_sym _ _ HR) as HR'. pose proof (target_sym _ _ _ _ _ (proj1 HR) HT) as HT'.
  destruct (twin_exists df' df tcol tval' tval H1' H1 HR' HT' X' K') as (X & K & T & _). destruct (H X K) as (q & o & A & B). exists q, o.
  rewrite <- !(twin_quality df' df tcol tval' tval H1' H1 HR' HT' V _ X' X T). auto.
Qed.
Print Assumptions C88_vlsd_succeeds.
Print Assumptions C88_vlsd.

(** * BSD, CBSD and CPBSD with WRAcc: the best quality *)
Theorem C88_bsd_best : forall cl ms num depth df df' tcol tval tval' st st' e, categorical df -> categorical df' -> distinct_texts df tcol -> distinct_texts df' tcol ->
  has_column df tcol -> (1 <= num)%Z -> relabelled df df' -> same_target df df' tcol tval tval' ->
  let c := wracc_config cl ms num depth in
  bsd_fit c (bsd_new c) df tcol tval = Ok st -> bsd_fit c (bsd_new c) df' tcol tval' = Ok st' ->
  In e (bs_k st) -> e <> dummy_entry c -> exists e', In e' (bs_k st') /\ true_entry c df' tcol tval' e' /\ (e_quality e <= e_quality e')%Q.
Proof.
  intros cl ms num depth df df' tcol tval tval' st st' e H1 H1' H2 H2' H3 Hn HR HT c Ea Eb Ie Nd. assert (H3' : has_column df' tcol) by (apply HR; exact H3).
  pose proof (wracc_input cl ms num depth df tcol tval H1 H2 H3 Hn) as HB. fold c in HB.
  assert (T : true_entry c df tcol tval e).
  { destruct (C35_best_list c df tcol tval st (bs_k st) HB Ea (or_introl eq_refl)) as [E|(_ & _ & _ & F)].
    - rewrite E in Ie. destruct Ie as [Ie|[]]. congruence.
    - rewrite Forall_forall in F. auto. }
  destruct T as (K & _ & _ & _ & Q & _). destruct (twin_exists df df' tcol tval tval' H1 H1' HR HT _ K) as (X' & K' & T & P).
  apply (C56_best_wracc cl ms num depth df' tcol tval' st' X' (e_quality e) H1' H2' H3' Hn Eb); [|rewrite (twin_quality df df' tcol tval tval' H1 H1' HR HT _ _ _ X' T); exact Q].
  split; [exact K'|]. split.
  - intros s' I. destruct (P s' I) as (s & Is & Ts). rewrite (proj1 (twin_counts df df' tcol tval tval' H1 H1' HR HT _ _ Ts)).
    exact (C55_selectors c df tcol tval st (bs_k st) e s HB Ea (or_introl eq_refl) Ie Is).
  - pose proof (proj2 (C36_depth c df tcol tval st HB Ea) e Ie) as D. assert (L : length X' = length (e_pattern e)) by (rewrite <- (map_length s_attr X'), (proj1 T), map_length; reflexivity). rewrite L. exact D.
Qed.
Print Assumptions C88_bsd_best.

(** * Renaming the values gives such a dataset *)
Definition rename (ren : string -> string -> string) (df : dataframe) : dataframe :=
  DF (df_n df) (map (fun c => (fst c, map (fun v => match v with VStr s => VStr (ren (fst c) s) | _ => v end) (snd c))) (df_cols df)).
Lemma rename_get : forall ren cols a, col_get (map (fun c : string * list value => (fst c, map (fun v => match v with VStr s => VStr (ren (fst c) s) | _ => v end) (snd c))) cols) a =
  option_map (map (fun v => match v with VStr s => VStr (ren a s) | _ => v end)) (col_get cols a).
Proof.
  intros ren cols a. induction cols as [|[b c] cols IH]; [reflexivity|]. cbn [map col_get fst snd]. destruct (String.eqb a b) eqn:E; [|exact IH]. apply String.eqb_eq in E. subst. reflexivity.
Qed.
Lemma rename_cell : forall ren df i a, cell (rename ren df) i a = option_map (fun v => match v with VStr s => VStr (ren a s) | _ => v end) (cell df i a).
Proof. intros ren df i a. unfold cell, rename. cbn [df_cols]. rewrite rename_get. destruct (col_get (df_cols df) a) as [c|]; [|reflexivity]. cbn [option_map]. apply nth_error_map. Qed.
Theorem C88_renamed : forall ren df tcol tval, categorical df -> no_quotes df ->
  (forall a i j v w, cell df i a = Some (VStr v) -> cell df j a = Some (VStr w) -> ren a v = ren a w -> v = w) ->
  (forall i v, cell df i tcol = Some (VStr v) -> ren tcol v = ren tcol tval -> v = tval) ->
  categorical (rename ren df) /\ no_quotes (rename ren df) /\ relabelled df (rename ren df) /\ same_target df (rename ren df) tcol tval (ren tcol tval).
Proof.
  intros ren df tcol tval (W & N & S) Q I It.
  assert (TX : forall i a v, cell df i a = Some v -> exists s, v = VStr s).
  { intros i a v H. unfold cell in H. destruct (col_get (df_cols df) a) as [c|] eqn:G; [|discriminate].
    assert (J : In (a, c) (df_cols df)).
    { revert G. generalize (df_cols df) as cols. induction cols as [|[d e] cols IH]; cbn [col_get]; [discriminate|]. destruct (String.eqb a d) eqn:X; [|right; auto].
      apply String.eqb_eq in X. intros G. injection G as ->. left. congruence. }
    specialize (S a c v J (nth_error_In _ _ H)). destruct v; try discriminate S. eexists; reflexivity. }
  split; [split; [|split]|split; [|split; [split; [|split]|]]].
  - intros a c H. cbn [rename df_cols df_n] in *. apply in_map_iff in H. destruct H as ([b d] & E & J). cbn [fst snd] in E. injection E as <- <-. rewrite map_length. apply (W b d J).
  - cbn [rename df_cols]. rewrite map_map. cbn [fst]. exact N.
  - intros a c v H J. cbn [rename df_cols] in H. apply in_map_iff in H. destruct H as ([b d] & E & K). cbn [fst snd] in E. injection E as <- <-. apply in_map_iff in J. destruct J as (u & <- & J).
    specialize (S b d u K J). destruct u; try discriminate S. reflexivity.
  - intros a c H. cbn [rename df_cols] in H. apply in_map_iff in H. destruct H as ([b d] & E & K). cbn [fst snd] in E. injection E as <- _. apply (Q b d K).
  - reflexivity.
  - intros a. unfold has_column. cbn [rename df_cols]. rewrite rename_get. destruct (col_get (df_cols df) a) as [c|]; cbn [option_map]; split; intros [x H]; try discriminate; eexists; reflexivity.
  - intros a i j _ _. rewrite !rename_cell. destruct (cell df i a) as [v|] eqn:Ei, (cell df j a) as [w|] eqn:Ej; cbn [option_map]; try (split; discriminate); [|tauto].
    destruct (TX i a v Ei) as [s ->], (TX j a w Ej) as [u ->]. split; [|congruence]. intros H. injection H as H. f_equal. f_equal. apply (I a i j s u Ei Ej H).
  - intros i _. rewrite rename_cell. destruct (cell df i tcol) as [v|] eqn:Ei; cbn [option_map]; [|split; discriminate]. destruct (TX i tcol v Ei) as [s ->]. split; [|congruence].
    intros H. injection H as H. f_equal. f_equal. apply (It i s Ei H).
Qed.
Print Assumptions C88_renamed.

(** The list itself does depend on the values: of two subgroups of equal quality CPBSD keeps the one with the smaller value.  Here the values
    x and y of column a are swapped; the subgroup that is kept is written alike but covers another row. *)
Definition swap (a v : string) : string := if String.eqb a "a" then (if String.eqb v "x" then "y" else if String.eqb v "y" then "x" else v) else v.
Lemma swap_injective : forall a v w, swap a v = swap a w -> v = w.
Proof.
  intros a v w. unfold swap. destruct (String.eqb a "a"); [|auto].
  destruct (String.eqb v "x") eqn:A, (String.eqb w "x") eqn:B; [apply String.eqb_eq in A, B; congruence| | |];
  destruct (String.eqb w "y") eqn:C; destruct (String.eqb v "y") eqn:D; intros H; subst;
  repeat match goal with H : String.eqb _ _ = true |- _ => apply String.eqb_eq in H; subst | H : String.eqb _ _ = false |- _ => apply String.eqb_neq in H end; congruence.
Qed.

Definition rows_s := [("x","u","u","p"); ("y","u","u","p"); ("z","u","u","n"); ("z","u","u","n")].
Theorem C88_bsd_list_refuted : exists df, let c := wracc_config CPBSD 0 1 5 in let df' := rename swap df in let X := [is "a" "x"; is "b" "u"] in
  bsd_input c df "class" "p" /\ relabelled df df' /\ same_target df df' "class" "p" "p" /\
  brief (bsd_fit c (bsd_new c) df "class" "p") = Ok [(X, 1%Z, 0%Z)] /\ brief (bsd_fit c (bsd_new c) df' "class" "p") = Ok [(X, 1%Z, 0%Z)] /\ ~ twin df df' X X.
Proof.
  exists (rows3 rows_s). cbv zeta. destruct (rows3_ok rows_s) as (H1 & H2 & H3).
  destruct (C88_renamed swap (rows3 rows_s) "class" "p" H1 (rows3_no_quotes rows_s)) as (R1 & R2 & R3 & R4); [intros a i j v w _ _; apply swap_injective|intros i v _; apply swap_injective|].
  split; [apply wracc_input; auto; [|lia]; apply no_quotes_texts; [exact H1|apply rows3_no_quotes]|]. split; [exact R3|]. split; [exact R4|]. split; [vm_compute; reflexivity|]. split; [vm_compute; reflexivity|].
  intros [_ T]. specialize (T 0). cbn in T. specialize (T ltac:(lia)). discriminate T.
Qed.
Print Assumptions C88_bsd_list_refuted.

(** * Concrete cases *)
Definition numbered (a v : string) : string := (if String.eqb v "x" then "2" else if String.eqb v "y" then "1" else v)%string.
Lemma toy_renamed : categorical (rename numbered toy) /\ no_quotes (rename numbered toy) /\ relabelled toy (rename numbered toy) /\ same_target toy (rename numbered toy) "class" "p" "p".
Proof.
  apply (C88_renamed numbered toy "class" "p" (proj1 toy_ok) toy_no_quotes).
  - intros a i j v w Hi Hj E. unfold cell in *. cbn [df_cols toy col_get] in *.
    repeat match goal with H : context [String.eqb a ?b] |- _ => destruct (String.eqb a b) end; try discriminate;
      apply nth_error_In in Hi; apply nth_error_In in Hj; cbn in Hi, Hj;
      repeat match goal with H : _ \/ _ |- _ => destruct H as [H|H] | H : False |- _ => destruct H end;
      injection Hi as <-; injection Hj as <-; try reflexivity; discriminate E.
  - intros i v Hi E. unfold cell in Hi. cbn [df_cols toy col_get] in Hi.
    repeat match goal with H : context [String.eqb "class" ?b] |- _ => destruct (String.eqb "class" b) end; try discriminate;
    apply nth_error_In in Hi; cbn in Hi;
      repeat match goal with H : _ \/ _ |- _ => destruct H as [H|H] | H : False |- _ => destruct H end; injection Hi as <-; try reflexivity; discriminate E.
Qed.
Example C88_nonvacuous : exists a b, sdmap_fit toy_config (SDS 0 0 None) toy "class" "p" = Ok a /\ sdmap_fit toy_config (SDS 0 0 None) (rename numbered toy) "class" "p" = Ok b /\
  map (fun r => g_desc (r_subgroup r)) (lines_in a) = [[is "a" "x"]; [is "b" "u"]; [is "a" "x"; is "b" "u"]] /\
  map (fun r => g_desc (r_subgroup r)) (lines_in b) = [[is "a" "2"]; [is "b" "u"]; [is "a" "2"; is "b" "u"]].
Proof. eexists _, _. split; [vm_compute; reflexivity|]. split; [vm_compute; reflexivity|]. split; reflexivity. Qed.
Print Assumptions C88_nonvacuous.
