(** Theorems C89: other names of the columns, and other values. *)
From Coq Require Import String.
From Verif Require Import CoreFrame FPTreeProofs SDMapProofs SDMapStarModel VerticalSpec VerticalModel VLSDModel BSDModel QualityModel MiningProofs ReorderProofs Properties_Quality Properties_SDMap Properties_SDMapStar Properties_VLSD Properties_BSD Properties_BSDBest.
From Verif Require Export Properties_Relabel.
From Coq Require Import Permutation Lia Setoid.
Open Scope string_scope.
Open Scope list_scope.
Open Scope nat_scope.

(** * Specification *)
(** [R] pairs the columns of [df] with those of [df'], one to one; in paired columns two rows of [df'] have equal cells iff they have in
    [df].  The names of the columns, their order and the values may all differ. *)
Definition corresponds (R : string -> string -> Prop) (df df' : dataframe) : Prop :=
  df_n df' = df_n df /\ (forall a, has_column df a -> exists b, has_column df' b /\ R a b) /\ (forall b, has_column df' b -> exists a, has_column df a /\ R a b) /\
  (forall a b c d, R a b -> R c d -> (a = c <-> b = d)) /\
  forall a b, R a b -> forall i j, i < df_n df -> j < df_n df -> (cell df' i b = cell df' j b <-> cell df i a = cell df j a).
(** The target columns are paired, and [tval'] marks the rows of [df'] that [tval] marks in [df]. *)
Definition same_mark (R : string -> string -> Prop) (df df' : dataframe) (tcol tval tcol' tval' : string) : Prop :=
  R tcol tcol' /\ forall i, i < df_n df -> (cell df' i tcol' = Some (VStr tval') <-> cell df i tcol = Some (VStr tval)).
(** The columns paired with those of the other description, and the same rows covered. *)
Definition image (R : string -> string -> Prop) (df df' : dataframe) (X X' : list selector) : Prop :=
  (forall s, In s X -> exists s', In s' X' /\ R (s_attr s) (s_attr s')) /\ (forall s', In s' X' -> exists s, In s X /\ R (s_attr s) (s_attr s')) /\
  forall i, i < df_n df -> forallb (row_matchesb df' i) X' = forallb (row_matchesb df i) X.
(** The line [r'] of [df'] says of the corresponding description what [r] says. *)
Definition image_line {V} (R : string -> string -> Prop) (df df' : dataframe) (tcol' tval' : string) (r r' : record V) : Prop :=
  same_numbers r r' /\ image R df df' (g_desc (r_subgroup r)) (g_desc (r_subgroup r')) /\ g_target (r_subgroup r') = Sel tcol' EQUAL (VStr tval').
Definition back (R : string -> string -> Prop) (b a : string) : Prop := R a b.

Lemma corresponds_sym : forall R df df', corresponds R df df' -> corresponds (back R) df' df.
Proof.
  intros R df df' (E & A & B & I & H). split; [auto|]. split; [intros b Hb; destruct (B b Hb) as (a & ? & ?); exists a; auto|]. split; [intros a Ha; destruct (A a Ha) as (b & ? & ?); exists b; auto|].
  split; [intros a b c d H1 H2; symmetry; apply (I _ _ _ _ H1 H2)|]. intros a b Rab i j Hi Hj. rewrite E in *. symmetry. apply H; auto.
Qed.
Lemma mark_sym : forall R df df' tcol tval tcol' tval', df_n df' = df_n df -> same_mark R df df' tcol tval tcol' tval' -> same_mark (back R) df' df tcol' tval' tcol tval.
Proof. intros R df df' tcol tval tcol' tval' E [A H]. split; [exact A|]. intros i Hi. rewrite E in Hi. symmetry. apply H; auto. Qed.
Lemma image_sym : forall R df df' X X', df_n df' = df_n df -> image R df df' X X' -> image (back R) df' df X' X.
Proof. intros R df df' X X' E (A & B & H). split; [intros s I; destruct (B s I) as (u & ? & ?); exists u; auto|]. split; [intros s I; destruct (A s I) as (u & ? & ?); exists u; auto|]. intros i Hi. rewrite E in Hi. symmetry. apply H; auto. Qed.

Section Corresponding.
  Variables (R : string -> string -> Prop) (df df' : dataframe) (tcol tval tcol' tval' : string).
  Hypotheses (Hcat : categorical df) (Hcat' : categorical df') (HR : corresponds R df df') (HT : same_mark R df df' tcol tval tcol' tval').
  Let t := Sel tcol EQUAL (VStr tval).
  Let t' := Sel tcol' EQUAL (VStr tval').
  Lemma mark_row : forall i, i < df_n df -> row_matchesb df' i t' = row_matchesb df i t.
  Proof. intros i Hi. apply bool_iff. rewrite (row_match_cell df' Hcat'), (row_match_cell df Hcat) by (split; reflexivity). apply HT. exact Hi. Qed.
  Lemma image_counts : forall X X', image R df df' X X' -> tp_of df' t' X' = tp_of df t X /\ fp_of df' t' X' = fp_of df t X /\ coverage df' X' = coverage df X.
  Proof.
    intros X X' (_ & _ & H). unfold tp_of, fp_of, pos_rows, neg_rows, coverage, VerticalSpec.matches_all. rewrite (proj1 HR).
    split; [|split]; repeat (apply f_equal); apply filter_ext_in; intros i I; apply in_seq in I; rewrite (H i) by lia; try rewrite mark_row by lia; reflexivity.
  Qed.
  Lemma image_totals : TP_of df' tcol' tval' = TP_of df tcol tval /\ FP_of df' tcol' tval' = FP_of df tcol tval.
  Proof. destruct (image_counts [] []) as (A & B & _); [split; [intros s []|split; [intros s []|reflexivity]]|]. split; [exact A|exact B]. Qed.
  Lemma image_quality : forall V (m : Z -> Z -> Z -> Z -> res V) X X', image R df df' X X' -> quality m df' tcol' tval' X' = quality m df tcol tval X.
  Proof. intros V m X X' H. unfold quality. destruct (image_counts X X' H) as (A & B & _). destruct image_totals as [C D]. fold t t'. rewrite A, B, C, D. reflexivity. Qed.
  Lemma line_image : forall V X X' (q : V), image R df df' X X' -> image_line R df df' tcol' tval' (line_of df tcol tval X q) (line_of df' tcol' tval' X' q).
  Proof.
    intros V X X' q H. destruct (image_counts X X' H) as (A & B & _). destruct image_totals as [C D].
    split; [split; [reflexivity|split; [exact A|split; [exact B|split; [exact C|exact D]]]]|]. split; [exact H|reflexivity].
  Qed.
  Lemma text_in : forall i b, i < df_n df -> has_column df' b -> exists w, cell df' i b = Some (VStr w).
  Proof.
    intros i b Hi [c Hc]. destruct HR as (E & _). destruct Hcat' as (W & _ & S0).
    assert (I : In (b, c) (df_cols df')).
    { revert Hc. generalize (df_cols df') as cols. induction cols as [|[d e] cols IH]; cbn [col_get]; [discriminate|]. destruct (String.eqb b d) eqn:X; [|right; auto].
      apply String.eqb_eq in X. intros G. injection G as ->. left. congruence. }
    unfold cell. rewrite Hc. destruct (nth_error c i) as [v|] eqn:N.
    - specialize (S0 b c v I (nth_error_In _ _ N)). destruct v; try discriminate S0. eexists; reflexivity.
    - apply nth_error_None in N. rewrite (W b c I) in N. lia.
  Qed.
  (** The selector of the paired column with the value of row [i]. *)
  Definition paired (i : nat) (s s' : selector) : Prop :=
    R (s_attr s) (s_attr s') /\ has_column df' (s_attr s') /\ s_op s' = EQUAL /\ is_str (s_val s') = true /\ cell df' i (s_attr s') = Some (s_val s').
  Lemma paired_exists : forall i X, i < df_n df -> plain_desc df X -> exists X0, Forall2 (paired i) X X0.
  Proof.
    intros i X Hi. induction X as [|s X IH]; intros P; [exists []; constructor|]. destruct IH as [X0 F]; [intros x I; apply P; right; exact I|].
    destruct (P s (or_introl eq_refl)) as (_ & _ & Hc). destruct (proj1 (proj2 HR) _ Hc) as (b & Hb & Rb). destruct (text_in i b Hi Hb) as [w Ew].
    exists (Sel b EQUAL (VStr w) :: X0). constructor; [|exact F]. split; [exact Rb|]. split; [exact Hb|]. split; [reflexivity|]. split; [reflexivity|exact Ew].
  Qed.
  Lemma paired_rows : forall i j X X0, i < df_n df -> j < df_n df -> plain_desc df X -> forallb (row_matchesb df i) X = true -> Forall2 (paired i) X X0 ->
    forallb (row_matchesb df' j) X0 = forallb (row_matchesb df j) X.
  Proof.
    intros i j X X0 Hi Hj P M F. revert P M. induction F as [|s s' X X0 Q F IH]; intros P M; [reflexivity|]. cbn [forallb] in *. apply andb_prop in M. destruct M as [Ms M].
    rewrite IH; [|intros x I; apply P; right; exact I|exact M]. f_equal. destruct (P s (or_introl eq_refl)) as (O & St & _). destruct Q as (Q1 & _ & Q3 & Q4 & Q5).
    apply bool_iff. rewrite (row_match_cell df' Hcat'), (row_match_cell df Hcat) by (split; auto). rewrite (row_match_cell df Hcat) in Ms by (split; auto).
    rewrite <- Q5, <- Ms. apply (proj2 (proj2 (proj2 (proj2 HR))) _ _ Q1); auto.
  Qed.
  Lemma forall2_left : forall i X X0 s, Forall2 (paired i) X X0 -> In s X -> exists s', In s' X0 /\ paired i s s'.
  Proof. intros i X X0 s F. induction F as [|x y X X0 Q F IH]; intros I; [destruct I|]. destruct I as [<-|I]; [exists y; split; [left; reflexivity|exact Q]|]. destruct (IH I) as (u & Iu & Qu). exists u. split; [right; exact Iu|exact Qu]. Qed.
  Lemma forall2_right : forall i X X0 s', Forall2 (paired i) X X0 -> In s' X0 -> exists s, In s X /\ paired i s s'.
  Proof. intros i X X0 s F. induction F as [|x y X X0 Q F IH]; intros I; [destruct I|]. destruct I as [<-|I]; [exists x; split; [left; reflexivity|exact Q]|]. destruct (IH I) as (u & Iu & Qu). exists u. split; [right; exact Iu|exact Qu]. Qed.
  Lemma same_elements : forall j (X Y : list selector), (forall s, In s X <-> In s Y) -> forallb (row_matchesb df' j) X = forallb (row_matchesb df' j) Y.
  Proof. intros j X Y H. apply bool_iff. rewrite !forallb_forall. split; intros G s I; apply G, H, I. Qed.
  Lemma paired_image : forall i X X0 X', i < df_n df -> plain_desc df X -> forallb (row_matchesb df i) X = true -> Forall2 (paired i) X X0 -> (forall s, In s X' <-> In s X0) ->
    image R df df' X X'.
  Proof.
    intros i X X0 X' Hi P M F E. split; [|split].
    - intros s I. destruct (forall2_left _ _ _ s F I) as (s' & I' & Q). exists s'. split; [apply E; exact I'|apply Q].
    - intros s' I. apply E in I. destruct (forall2_right _ _ _ s' F I) as (s & I' & Q). exists s. split; [exact I'|apply Q].
    - intros j Hj. rewrite (same_elements j X' X0 E). apply (paired_rows i j X X0 Hi Hj P M F).
  Qed.
  (** Every description with a covered row has its image. *)
  Lemma image_at : forall X, candidate df tcol X -> exists X', candidate df' tcol' X' /\ image R df df' X X' /\ length X' <= length X /\
    (forall s', In s' X' -> exists s, In s X /\ image R df df' [s] [s']) /\
    forall Y, candidate df tcol Y -> incl Y X -> exists Y', candidate df' tcol' Y' /\ incl Y' X' /\ image R df df' Y Y'.
  Proof.
    intros X KX. destruct (covered_row df X (proj2 KX)) as (i & Hi & M).
    assert (G : forall Y Y0, candidate df tcol Y -> forallb (row_matchesb df i) Y = true -> Forall2 (paired i) Y Y0 ->
      candidate df' tcol' (pattern_init Y0) /\ image R df df' Y (pattern_init Y0) /\ forall s, In s (pattern_init Y0) <-> In s Y0).
    { intros Y Y0 [D C] MY F. pose proof (plain_of df tcol Y D) as P.
      assert (N0 : Y0 <> []) by (intros ->; inversion F; subst; apply (proj1 D); reflexivity).
      assert (HU : forall s, In s Y0 -> U df' tcol' s).
      { intros s I. destruct (forall2_right _ _ _ s F I) as (u & Iu & Q1 & Q2 & Q3 & Q4 & _). split; [split; auto|]. destruct Q2 as [col Hcol]. exists col. apply cols_in. split; [apply col_get_in; [apply Hcat'|exact Hcol]|].
        intros E. destruct D as (_ & _ & D). destruct (D u Iu) as (_ & _ & A & _). apply A. apply (proj1 (proj2 (proj2 (proj2 HR))) _ _ _ _ Q1 (proj1 HT)). exact E. }
      destruct (as_description df' tcol' Y0 Hcat' N0 HU) as [DE EE]. pose proof (paired_image i Y Y0 _ Hi P MY F EE) as T. split; [|split; [exact T|exact EE]].
      split; [exact DE|]. destruct (image_counts _ _ T) as (_ & _ & ->). exact C. }
    pose proof (plain_of df tcol X (proj1 KX)) as P. destruct (paired_exists i X Hi P) as [X0 F]. destruct (G X X0 KX M F) as (K' & T & E). exists (pattern_init X0). split; [exact K'|]. split; [exact T|]. split; [|split].
    - assert (L : length X = length X0) by (clear -F; induction F; cbn [length]; congruence). rewrite L. apply NoDup_incl_length; [apply (candidate_covered df' tcol' _ Hcat' K')|]. intros s I. apply E. exact I.
    - intros s' I. apply E in I. destruct (forall2_right _ _ _ s' F I) as (s & Is & Q). exists s. split; [exact Is|]. rewrite forallb_forall in M.
      apply (paired_image i [s] [s'] [s'] Hi); [intros x [<-|[]]; apply P; exact Is|cbn [forallb]; rewrite (M s Is); reflexivity|constructor; [exact Q|constructor]|tauto].
    - intros Y KY Inc. assert (MY : forallb (row_matchesb df i) Y = true) by (apply forallb_forall; rewrite forallb_forall in M; intros s I; apply M, Inc, I).
      assert (EY : exists Y0, Forall2 (paired i) Y Y0 /\ incl Y0 X0).
      { clear -F Inc. induction Y as [|s Y IH]; [exists []; split; [constructor|intros s []]|]. destruct IH as (Y0 & FY & IY); [intros x I; apply Inc; right; exact I|].
        destruct (forall2_left _ _ _ s F (Inc s (or_introl eq_refl))) as (s' & I' & Q). exists (s' :: Y0). split; [constructor; auto|]. intros x [<-|I]; auto. }
      destruct EY as (Y0 & FY & IY). destruct (G Y Y0 KY MY FY) as (K2 & T2 & E2). exists (pattern_init Y0). split; [exact K2|]. split; [|exact T2]. intros s I. apply E, IY, E2, I.
  Qed.
  (** and is determined by it. *)
  Lemma image_injective : forall X Y X', candidate df tcol X -> candidate df tcol Y -> image R df df' X X' -> image R df df' Y X' -> X = Y.
  Proof.
    assert (G : forall X Y X', candidate df tcol X -> candidate df tcol Y -> image R df df' X X' -> image R df df' Y X' -> incl X Y).
    { intros X Y X' [DX CX] [DY _] (AX & _ & RX) (_ & BY & RY) s I. destruct (covered_row df X CX) as (i & Hi & MX). assert (MY : forallb (row_matchesb df i) Y = true) by (rewrite <- RY, RX by exact Hi; exact MX).
      destruct (AX s I) as (s' & I' & Q). destruct (BY s' I') as (y & Iy & Q'). assert (A : s_attr s = s_attr y) by (apply (proj1 (proj2 (proj2 (proj2 HR))) _ _ _ _ Q Q'); reflexivity).
      rewrite forallb_forall in MX, MY. specialize (MX s I). specialize (MY y Iy).
      destruct (plain_of df tcol X DX s I) as (O1 & S1 & _), (plain_of df tcol Y DY y Iy) as (O2 & S2 & _). rewrite (row_match_cell df Hcat) in MX, MY by (split; auto). rewrite A in MX.
      replace s with y; [exact Iy|]. destruct s as [a o v], y as [b p w]. cbn in *. congruence. }
    intros X Y X' KX KY TX TY. apply (description_eq df tcol X Y Hcat (proj1 KX) (proj1 KY)). intros s. split; [apply (G X Y X')|apply (G Y X X')]; auto.
  Qed.
End Corresponding.
Lemma col_image : forall R df df' tcol tval tcol' tval', corresponds R df df' -> same_mark R df df' tcol tval tcol' tval' -> has_column df tcol -> has_column df' tcol'.
Proof. intros R df df' tcol tval tcol' tval' (_ & A & _ & I & _) [T _] H. destruct (A tcol H) as (b & Hb & Rb). replace tcol' with b; [exact Hb|]. apply (I _ _ _ _ Rb T). reflexivity. Qed.
(** * SDMap *)
Section ImageHalves.
  Variables (V : Type) (c : sd_config V) (s0 : sd_state V) (R : string -> string -> Prop) (df df' : dataframe) (tcol tval tcol' tval' : string).
  Hypotheses (Hcat : categorical df) (Hcat' : categorical df') (Hk : distinct_keys df tcol) (Hk' : distinct_keys df' tcol') (Hcol : has_column df tcol) (Hw : c_write c = true)
    (HR : corresponds R df df') (HT : same_mark R df df' tcol tval tcol' tval') (Hn : sdmap_new c = Ok s0).
  Let Hcol' : has_column df' tcol' := col_image R df df' tcol tval tcol' tval' HR HT Hcol.
  Lemma frequent_image : forall a b n X, frequent df tcol tval a b n X -> exists X', frequent df' tcol' tval' a b n X' /\ image R df df' X X'.
  Proof.
    intros a b n X (D & C & S). destruct (image_at R df df' tcol tval tcol' tval' Hcat Hcat' HR HT X (conj D C)) as (X' & (D' & C') & T & _).
    exists X'. split; [|exact T]. split; [exact D'|]. split; [exact C'|]. destruct (image_counts R df df' tcol tval tcol' tval' Hcat Hcat' HR HT X X' T) as (-> & -> & _). exact S.
  Qed.
  Lemma image_fit_half : forall b, sdmap_fit c s0 df' tcol' tval' = Ok b -> exists a, sdmap_fit c s0 df tcol tval = Ok a.
  Proof.
    intros b E. apply (proj1 (C27_errors V c s0 df tcol tval s0 Hcat Hk Hcol Hn)). intros X HX. destruct (frequent_image _ _ _ X HX) as (X' & HX' & T).
    rewrite <- (image_quality R df df' tcol tval tcol' tval' Hcat Hcat' HR HT V _ X X' T). exact (proj1 (proj1 (C27_errors V c s0 df' tcol' tval' s0 Hcat' Hk' Hcol' Hn)) (ex_intro _ b E) X' HX').
  Qed.
  Lemma image_lines_half : forall a b, sdmap_fit c s0 df tcol tval = Ok a -> sdmap_fit c s0 df' tcol' tval' = Ok b ->
    (forall r, In r (lines_in a) -> exists r', In r' (lines_in b) /\ image_line R df df' tcol' tval' r r') /\ st_selected a <= st_selected b /\ visited_nodes a <= visited_nodes b.
  Proof.
    intros a b Ea Eb. destruct (sdmap_lines V c s0 df tcol tval a Hcat Hk Hcol Hw Hn Ea) as [_ La]. destruct (sdmap_lines V c s0 df' tcol' tval' b Hcat' Hk' Hcol' Hw Hn Eb) as [_ Lb]. split.
    - intros r Ir. apply La in Ir. destruct Ir as (X & q & HX & Eq & Rq & ->). destruct (frequent_image _ _ _ X HX) as (X' & HX' & T). exists (line_of df' tcol' tval' X' q). split.
      + apply Lb. exists X', q. rewrite (image_quality R df df' tcol tval tcol' tval' Hcat Hcat' HR HT V _ X X' T). auto.
      + apply (line_image R df df' tcol tval tcol' tval' Hcat Hcat' HR HT V X X' q T).
    - destruct (C28_counters V c s0 df tcol tval a Hcat Hk Hcol Hn Ea) as (al & go & Na & HA & Ng & HG & -> & -> & _).
      destruct (C28_counters V c s0 df' tcol' tval' b Hcat' Hk' Hcol' Hn Eb) as (al' & go' & Na' & HA' & Ng' & HG' & -> & -> & _).
      assert (Cd : forall X, In X al -> candidate df tcol X) by (intros X I; apply HA in I; destruct I as (D & C & _); split; auto).
      split; apply (inj_length _ _ (image R df df')); auto.
      + intros X I. apply HG in I. destruct I as (I & q & Eq & Rq). apply HA in I. destruct (frequent_image _ _ _ X I) as (X' & HX' & T). exists X'. split; [|exact T].
        apply HG'. split; [apply HA'; exact HX'|]. exists q. rewrite (image_quality R df df' tcol tval tcol' tval' Hcat Hcat' HR HT V _ X X' T). auto.
      + intros X Z Y IX IZ. apply (image_injective R df df' tcol Hcat HR); apply Cd; [apply HG in IX; apply IX|apply HG in IZ; apply IZ].
      + intros X I. apply HA in I. destruct (frequent_image _ _ _ X I) as (X' & HX' & T). exists X'. split; [apply HA'; exact HX'|exact T].
      + intros X Z Y IX IZ. apply (image_injective R df df' tcol Hcat HR); apply Cd; auto.
  Qed.
End ImageHalves.
(** On corresponding datasets both calls succeed or neither, with the same counters, and each line of one has a line of the other with the
    same numbers whose description covers the same rows with selectors on the corresponding columns. *)
Theorem C89_sdmap : forall V (c : sd_config V) s0 R df df' tcol tval tcol' tval', categorical df -> categorical df' -> distinct_keys df tcol -> distinct_keys df' tcol' -> has_column df tcol ->
  c_write c = true -> corresponds R df df' -> same_mark R df df' tcol tval tcol' tval' -> sdmap_new c = Ok s0 ->
  ((exists a, sdmap_fit c s0 df tcol tval = Ok a) <-> (exists b, sdmap_fit c s0 df' tcol' tval' = Ok b)) /\
  forall a b, sdmap_fit c s0 df tcol tval = Ok a -> sdmap_fit c s0 df' tcol' tval' = Ok b ->
    st_selected b = st_selected a /\ visited_nodes b = visited_nodes a /\
    (forall r, In r (lines_in a) -> exists r', In r' (lines_in b) /\ image_line R df df' tcol' tval' r r') /\
    (forall r', In r' (lines_in b) -> exists r, In r (lines_in a) /\ image_line (back R) df' df tcol tval r' r).
Proof.
  intros V c s0 R df df' tcol tval tcol' tval' H1 H1' H2 H2' H3 W HR HT N. pose proof (corresponds_sym _ _ _ HR) as HR'. pose proof (mark_sym _ _ _ _ _ _ _ (proj1 HR) HT) as HT'.
  pose proof (col_image _ _ _ _ _ _ _ HR HT H3) as H3'.
  split; [split|].
  - intros [a E]. exact (image_fit_half V c s0 (back R) df' df tcol' tval' tcol tval H1' H1 H2' H2 H3' HR' HT' N a E).
  - intros [b E]. exact (image_fit_half V c s0 R df df' tcol tval tcol' tval' H1 H1' H2 H2' H3 HR HT N b E).
  - intros a b Ea Eb. destruct (image_lines_half V c s0 R df df' tcol tval tcol' tval' H1 H1' H2 H2' H3 W HR HT N a b Ea Eb) as (L & S & X).
    destruct (image_lines_half V c s0 (back R) df' df tcol' tval' tcol tval H1' H1 H2' H2 H3' W HR' HT' N b a Eb Ea) as (L' & S' & X'). split; [lia|]. split; [lia|]. split; [exact L|exact L'].
Qed.
(** SDMapStar without limit. *)
Theorem C89_sdmapstar : forall V (c : star_config V) s0 R df df' tcol tval tcol' tval', categorical df -> categorical df' -> distinct_keys df tcol -> distinct_keys df' tcol' -> has_column df tcol ->
  sc_num c = 0%Z -> c_write (sc_base c) = true -> corresponds R df df' -> same_mark R df df' tcol tval tcol' tval' -> star_new c = Ok s0 ->
  ((exists a, star_fit c s0 df tcol tval = Ok a) <-> (exists b, star_fit c s0 df' tcol' tval' = Ok b)) /\
  forall a b, star_fit c s0 df tcol tval = Ok a -> star_fit c s0 df' tcol' tval' = Ok b ->
    st_selected (ss_base b) = st_selected (ss_base a) /\ visited_nodes (ss_base b) = visited_nodes (ss_base a) /\
    (forall r, In r (lines_in (ss_base a)) -> exists r', In r' (lines_in (ss_base b)) /\ image_line R df df' tcol' tval' r r') /\
    (forall r', In r' (lines_in (ss_base b)) -> exists r, In r (lines_in (ss_base a)) /\ image_line (back R) df' df tcol tval r' r).
Proof.
  intros V c s0 R df df' tcol tval tcol' tval' H1 H1' H2 H2' H3 Z0 W HR HT N. pose proof (col_image _ _ _ _ _ _ _ HR HT H3) as H3'.
  destruct (star_plain V c s0 df tcol tval H1 H2 H3 N Z0) as (M & A & A'). destruct (star_plain V c s0 df' tcol' tval' H1' H2' H3' N Z0) as (_ & B & B').
  destruct (C89_sdmap V _ _ R df df' tcol tval tcol' tval' H1 H1' H2 H2' H3 W HR HT M) as [F G]. split; [split|].
  - intros [a E]. destruct (A a E) as (a0 & Ea & _). destruct (proj1 F (ex_intro _ a0 Ea)) as [b0 Eb]. exact (B' b0 Eb).
  - intros [b E]. destruct (B b E) as (b0 & Eb & _). destruct (proj2 F (ex_intro _ b0 Eb)) as [a0 Ea]. exact (A' a0 Ea).
  - intros a b Ea Eb. destruct (A a Ea) as (a0 & Ea0 & La & Sa & Va). destruct (B b Eb) as (b0 & Eb0 & Lb & Sb & Vb). destruct (G a0 b0 Ea0 Eb0) as (S & X & L & L'). rewrite Sa, Sb, Va, Vb.
    split; [exact S|]. split; [exact X|]. split; intros r I.
    + apply La in I. destruct (L r I) as (r' & I' & T). exists r'. split; [apply Lb; exact I'|exact T].
    + apply Lb in I. destruct (L' r I) as (r' & I' & T). exists r'. split; [apply La; exact I'|exact T].
Qed.
Print Assumptions C89_sdmap. Print Assumptions C89_sdmapstar.

(** * VLSD, in any representation *)
Lemma sound_image : forall V (c : vl_config V) R df df' tcol tval tcol' tval', categorical df -> categorical df' -> corresponds R df df' -> same_mark R df df' tcol tval tcol' tval' ->
  sound_estimate c df tcol tval -> sound_estimate c df' tcol' tval'.
Proof.
  intros V c R df df' tcol tval tcol' tval' H1 H1' HR HT Se X' Y' o KX KY Inc [q [Eq Rq]] EY. pose proof (corresponds_sym _ _ _ HR) as HR'. pose proof (mark_sym _ _ _ _ _ _ _ (proj1 HR) HT) as HT'.
  destruct (image_at (back R) df' df tcol' tval' tcol tval H1' H1 HR' HT' X' KX) as (X & KX' & TX & _ & _ & Sub). destruct (Sub Y' KY Inc) as (Y & KY' & Inc' & TY).
  apply (Se X Y o KX' KY' Inc').
  - exists q. split; [|exact Rq]. rewrite (image_quality (back R) df' df tcol' tval' tcol tval H1' H1 HR' HT' V _ X' X TX). exact Eq.
  - rewrite (image_quality (back R) df' df tcol' tval' tcol tval H1' H1 HR' HT' V _ Y' Y TY). exact EY.
Qed.
(** An estimate that is sound on one of two corresponding datasets is sound on the other. *)
Theorem C89_sound_estimate : forall V (c : vl_config V) R df df' tcol tval tcol' tval', categorical df -> categorical df' -> corresponds R df df' -> same_mark R df df' tcol tval tcol' tval' ->
  (sound_estimate c df' tcol' tval' <-> sound_estimate c df tcol tval).
Proof.
  intros V c R df df' tcol tval tcol' tval' H1 H1' HR HT. split; [|apply (sound_image V c R); auto].
  apply (sound_image V c (back R) df' df); auto; [apply corresponds_sym; exact HR|apply (mark_sym _ _ _ _ _ _ _ (proj1 HR) HT)].
Qed.
Theorem C89_vlsd : forall Seq impl rows Seq' impl' rows', representation Seq impl rows -> representation Seq' impl' rows' ->
  forall V (c : vl_config V) R df df' tcol tval tcol' tval' a b, categorical df -> categorical df' -> has_column df tcol -> vc_write c = true ->
  corresponds R df df' -> same_mark R df df' tcol tval tcol' tval' -> sound_estimate c df tcol tval ->
  vlsd_fit impl c vlsd_new df tcol tval = Ok a -> vlsd_fit impl' c vlsd_new df' tcol' tval' = Ok b ->
  exists la lb, vs_file a = Some la /\ vs_file b = Some lb /\
    (forall l, In l (map vr_line la) -> exists l', In l' (map vr_line lb) /\ image_line R df df' tcol' tval' l l') /\
    (forall l', In l' (map vr_line lb) -> exists l, In l (map vr_line la) /\ image_line (back R) df' df tcol tval l' l).
Proof.
  assert (G : forall Seq impl rows Seq' impl' rows', representation Seq impl rows -> representation Seq' impl' rows' ->
    forall V (c : vl_config V) R df df' tcol tval tcol' tval' a b, categorical df -> categorical df' -> has_column df tcol -> vc_write c = true ->
    corresponds R df df' -> same_mark R df df' tcol tval tcol' tval' -> sound_estimate c df tcol tval -> sound_estimate c df' tcol' tval' ->
    vlsd_fit impl c vlsd_new df tcol tval = Ok a -> vlsd_fit impl' c vlsd_new df' tcol' tval' = Ok b ->
    exists la lb, vs_file a = Some la /\ vs_file b = Some lb /\
      (forall l, In l (map vr_line la) -> exists l', In l' (map vr_line lb) /\ image_line R df df' tcol' tval' l l')).
  { intros Seq impl rows Seq' impl' rows' P P' V c R df df' tcol tval tcol' tval' a b H1 H1' H3 W HR HT Se Se' Ea Eb. pose proof (col_image _ _ _ _ _ _ _ HR HT H3) as H3'.
    destruct (C29_sound_and_complete _ _ _ P V c df tcol tval _ a H1 H3 W Se Ea) as (la & Fa & _ & La).
    destruct (C29_sound_and_complete _ _ _ P' V c df' tcol' tval' _ b H1' H3' W Se' Eb) as (lb & Fb & _ & Lb).
    exists la, lb. split; [exact Fa|]. split; [exact Fb|]. intros l I. apply La in I. destruct I as (X & q & K & Eq & Rq & ->).
    destruct (image_at R df df' tcol tval tcol' tval' H1 H1' HR HT X K) as (X' & K' & T & _). exists (line_of df' tcol' tval' X' q). split.
    - apply Lb. exists X', q. rewrite (image_quality R df df' tcol tval tcol' tval' H1 H1' HR HT V _ X X' T). auto.
    - apply (line_image R df df' tcol tval tcol' tval' H1 H1' HR HT V X X' q T). }
  intros Seq impl rows Seq' impl' rows' P P' V c R df df' tcol tval tcol' tval' a b H1 H1' H3 W HR HT Se Ea Eb. pose proof (sound_image V c R df df' tcol tval tcol' tval' H1 H1' HR HT Se) as Se'.
  pose proof (col_image _ _ _ _ _ _ _ HR HT H3) as H3'.
  destruct (G _ _ _ _ _ _ P P' V c R df df' tcol tval tcol' tval' a b H1 H1' H3 W HR HT Se Se' Ea Eb) as (la & lb & Fa & Fb & L).
  destruct (G _ _ _ _ _ _ P' P V c (back R) df' df tcol' tval' tcol tval b a H1' H1 H3' W (corresponds_sym _ _ _ HR) (mark_sym _ _ _ _ _ _ _ (proj1 HR) HT) Se' Se Eb Ea) as (lb' & la' & Fb' & Fa' & L').
  rewrite Fa in Fa'. injection Fa' as <-. rewrite Fb in Fb'. injection Fb' as <-. exists la, lb. auto.
Qed.
Print Assumptions C89_vlsd. Print Assumptions C89_sound_estimate.

(** * BSD, CBSD, CPBSD with WRAcc: the best quality *)
Theorem C89_bsd_best : forall cl ms num depth R df df' tcol tval tcol' tval' st st' e, categorical df -> categorical df' -> distinct_texts df tcol -> distinct_texts df' tcol' ->
  has_column df tcol -> (1 <= num)%Z -> corresponds R df df' -> same_mark R df df' tcol tval tcol' tval' ->
  let c := wracc_config cl ms num depth in
  bsd_fit c (bsd_new c) df tcol tval = Ok st -> bsd_fit c (bsd_new c) df' tcol' tval' = Ok st' ->
  In e (bs_k st) -> e <> dummy_entry c -> exists e', In e' (bs_k st') /\ true_entry c df' tcol' tval' e' /\ (e_quality e <= e_quality e')%Q.
Proof.
  intros cl ms num depth R df df' tcol tval tcol' tval' st st' e H1 H1' H2 H2' H3 Hn HR HT c Ea Eb Ie Nd. pose proof (col_image _ _ _ _ _ _ _ HR HT H3) as H3'.
  pose proof (wracc_input cl ms num depth df tcol tval H1 H2 H3 Hn) as HB. fold c in HB.
  assert (T : true_entry c df tcol tval e).
  { destruct (C35_best_list c df tcol tval st (bs_k st) HB Ea (or_introl eq_refl)) as [E|(_ & _ & _ & F)].
    - rewrite E in Ie. destruct Ie as [Ie|[]]. congruence.
    - rewrite Forall_forall in F. auto. }
  destruct T as (K & _ & _ & _ & Q & _). destruct (image_at R df df' tcol tval tcol' tval' H1 H1' HR HT _ K) as (X' & K' & T & L & P & _).
  apply (C56_best_wracc cl ms num depth df' tcol' tval' st' X' (e_quality e) H1' H2' H3' Hn Eb); [|rewrite (image_quality R df df' tcol tval tcol' tval' H1 H1' HR HT _ _ _ X' T); exact Q].
  split; [exact K'|]. split.
  - intros s' I. destruct (P s' I) as (s & Is & Ts). rewrite (proj1 (image_counts R df df' tcol tval tcol' tval' H1 H1' HR HT _ _ Ts)).
    exact (C55_selectors c df tcol tval st (bs_k st) e s HB Ea (or_introl eq_refl) Ie Is).
  - pose proof (proj2 (C36_depth c df tcol tval st HB Ea) e Ie) as D. cbn in D |- *. lia.
Qed.
Print Assumptions C89_bsd_best.

(** * Which datasets correspond *)
(** The values renamed (C88). *)
Theorem C89_values : forall df df' tcol tval tval', relabelled df df' -> same_target df df' tcol tval tval' ->
  corresponds (fun a b => a = b) df df' /\ same_mark (fun a b => a = b) df df' tcol tval tcol tval'.
Proof.
  intros df df' tcol tval tval' (E & C & H) T. split; [|split; [reflexivity|exact T]]. split; [exact E|]. split; [intros a Ha; exists a; split; [apply C; exact Ha|reflexivity]|].
  split; [intros a Ha; exists a; split; [apply C; exact Ha|reflexivity]|]. split; [intros a b c d -> ->; reflexivity|]. intros a b <- i j Hi Hj. apply H; auto.
Qed.
(** Two steps. *)
Theorem C89_composition : forall R S df df' df'' tcol tval tcol' tval' tcol'' tval'', corresponds R df df' -> corresponds S df' df'' ->
  same_mark R df df' tcol tval tcol' tval' -> same_mark S df' df'' tcol' tval' tcol'' tval'' ->
  let RS := fun a c => exists b, R a b /\ S b c in corresponds RS df df'' /\ same_mark RS df df'' tcol tval tcol'' tval''.
Proof.
  intros R S df df' df'' tcol tval tcol' tval' tcol'' tval'' (E & A & B & I & H) (E2 & A2 & B2 & I2 & H2) [T M] [T2 M2] RS. split.
  - split; [congruence|]. split; [|split; [|split]].
    + intros a Ha. destruct (A a Ha) as (b & Hb & Rb). destruct (A2 b Hb) as (d & Hd & Sd). exists d. split; [exact Hd|exists b; auto].
    + intros d Hd. destruct (B2 d Hd) as (b & Hb & Sd). destruct (B b Hb) as (a & Ha & Rb). exists a. split; [exact Ha|exists b; auto].
    + intros a d c e (b & Rb & Sd) (b' & Rb' & Sd'). rewrite (I _ _ _ _ Rb Rb'). apply (I2 _ _ _ _ Sd Sd').
    + intros a d (b & Rb & Sd) i j Hi Hj. rewrite (H2 _ _ Sd) by (rewrite E; auto). apply (H _ _ Rb); auto.
  - split; [exists tcol'; auto|]. intros i Hi. rewrite M2 by (rewrite E; exact Hi). apply M. exact Hi.
Qed.
(** The columns renamed by [f], which gives different columns different names. *)
Definition rename_columns (f : string -> string) (df : dataframe) : dataframe := DF (df_n df) (map (fun c => (f (fst c), snd c)) (df_cols df)).
Theorem C89_renamed : forall f df tcol tval, categorical df -> has_column df tcol -> NoDup (map f (map fst (df_cols df))) ->
  (forall a, has_column df a -> has_char "'" (f a) = false /\ has_char """" (f a) = false) ->
  let R := fun a b => has_column df a /\ b = f a in
  categorical (rename_columns f df) /\ no_quotes (rename_columns f df) /\ corresponds R df (rename_columns f df) /\ same_mark R df (rename_columns f df) tcol tval (f tcol) tval.
Proof.
  intros f df tcol tval (W & N & S) Ht NF Q R.
  assert (In_has : forall a c, In (a, c) (df_cols df) -> has_column df a) by (intros a c I; exists c; apply MiningProofs.col_get_in; auto).
  assert (N' : NoDup (map fst (df_cols (rename_columns f df)))) by (cbn [rename_columns df_cols]; rewrite map_map; cbn [fst]; rewrite map_map in NF; exact NF).
  assert (G : forall a, has_column df a -> col_get (df_cols (rename_columns f df)) (f a) = col_get (df_cols df) a).
  { intros a [c Hc]. rewrite Hc. apply MiningProofs.col_get_in in Hc; [|exact N]. apply MiningProofs.col_get_in; [exact N'|]. cbn [rename_columns df_cols]. apply in_map_iff. exists (a, c). split; [reflexivity|exact Hc]. }
  assert (Inj : forall a c, has_column df a -> has_column df c -> f a = f c -> a = c).
  { intros a c [x Hx] [y Hy] E. apply MiningProofs.col_get_in in Hx, Hy; try exact N. apply (in_map fst) in Hx, Hy. cbn [fst] in Hx, Hy. revert Hx Hy NF. generalize (map fst (df_cols df)) as l.
    induction l as [|z l IH]; intros Ha Hc NF; [destruct Ha|]. cbn [map] in NF. apply NoDup_cons_iff in NF. destruct NF as [N1 NF]. destruct Ha as [->|Ha], Hc as [->|Hc]; auto.
    - exfalso. apply N1. rewrite E. apply in_map. exact Hc.
    - exfalso. apply N1. rewrite <- E. apply in_map. exact Ha. }
  assert (CE : forall a i, has_column df a -> cell (rename_columns f df) i (f a) = cell df i a) by (intros a i Ha; unfold cell; rewrite (G a Ha); reflexivity).
  split; [split; [|split; [exact N'|]]|split; [|split; [|split]]].
  - intros b c I. cbn [rename_columns df_cols] in I. apply in_map_iff in I. destruct I as ([a d] & E & I). injection E as <- <-. exact (W a d I).
  - intros b c v I J. cbn [rename_columns df_cols] in I. apply in_map_iff in I. destruct I as ([a d] & E & I). injection E as <- <-. exact (S a d v I J).
  - intros b c I. cbn [rename_columns df_cols] in I. apply in_map_iff in I. destruct I as ([a d] & E & I). injection E as <- <-. apply Q. exact (In_has a d I).
  - split; [reflexivity|]. split; [intros a Ha; exists (f a); split; [unfold has_column; rewrite (G a Ha); exact Ha|split; auto]|]. split; [|split].
    + intros b [c Hc]. apply MiningProofs.col_get_in in Hc; [|exact N']. cbn [rename_columns df_cols] in Hc. apply in_map_iff in Hc. destruct Hc as ([a d] & E & I). injection E as <- <-.
      exists a. split; [exact (In_has a d I)|split; [exact (In_has a d I)|reflexivity]].
    + intros a b c d [Ha ->] [Hc ->]. split; [congruence|apply Inj; auto].
    + intros a b [Ha ->] i j _ _. rewrite !(CE a _ Ha). reflexivity.
  - split; [exact Ht|reflexivity].
  - intros i _. rewrite (CE tcol i Ht). reflexivity.
Qed.
Print Assumptions C89_values. Print Assumptions C89_composition. Print Assumptions C89_renamed.

(** * Concrete cases *)
Definition turned (a : string) : string := (if String.eqb a "a" then "z" else a)%string.
Lemma toy_turned : let R := fun a b => has_column toy a /\ b = turned a in categorical (rename_columns turned toy) /\ no_quotes (rename_columns turned toy) /\
  corresponds R toy (rename_columns turned toy) /\ same_mark R toy (rename_columns turned toy) "class" "p" "class" "p".
Proof.
  apply (C89_renamed turned toy "class" "p" (proj1 toy_ok)); [apply toy_ok|repeat constructor; cbn; intuition discriminate|].
  intros a [c Hc]. cbn in Hc. unfold turned. destruct (String.eqb a "a") eqn:A; [split; reflexivity|].
  destruct (String.eqb a "b") eqn:B; [apply String.eqb_eq in B; subst; split; reflexivity|]. destruct (String.eqb a "class") eqn:D; [apply String.eqb_eq in D; subst; split; reflexivity|discriminate].
Qed.
(** The renamed column comes last in the descriptions. *)
Example C89_nonvacuous : exists a b, sdmap_fit toy_config (SDS 0 0 None) toy "class" "p" = Ok a /\ sdmap_fit toy_config (SDS 0 0 None) (rename_columns turned toy) "class" "p" = Ok b /\
  map (fun r => g_desc (r_subgroup r)) (lines_in a) = [[is "a" "x"]; [is "b" "u"]; [is "a" "x"; is "b" "u"]] /\
  map (fun r => g_desc (r_subgroup r)) (lines_in b) = [[is "z" "x"]; [is "b" "u"]; [is "b" "u"; is "z" "x"]].
Proof. eexists _, _. split; [vm_compute; reflexivity|]. split; [vm_compute; reflexivity|]. split; reflexivity. Qed.
Print Assumptions C89_nonvacuous.
