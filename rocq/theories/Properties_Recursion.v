(** Theorem C84: the depth of the recursion of fit.  [..._within limit] (RecursionModel.v) is fit when only [limit] nested calls of its
    recursive functions fit on the interpreter's stack: one call more is a RecursionError, [Err OutOfFuel].  A run that does not meet the
    limit ends as fit does with no limit: the theorems say from which limit on no run meets it, in terms of the columns of the dataset and
    of the parameters, whatever the number of rows and of values. *)
From Coq Require Import String.
From Verif Require Import RecursionModel RecursionProofs RecursionProofs2 RecursionProofs3 IDSDFit.
From Verif Require Import MiningProofs SDMapProofs SDMapStarErrors QualityModel Properties_SDMap Properties_SDMapStar Properties_VLSD Properties_BSD Properties_IDSD.
From Coq Require Import Lia.
Open Scope string_scope.
Open Scope list_scope.
Open Scope nat_scope.

(** SDMap: more nested calls than the dataset has columns (the target included) are never needed. *)
Theorem C84_sdmap : forall V (c : sd_config V) st0 st df tcol tval limit, categorical df -> distinct_keys df tcol -> has_column df tcol ->
  sdmap_new c = Ok st0 -> length (df_cols df) < limit -> sdmap_fit_within limit c st df tcol tval = sdmap_fit c st df tcol tval.
Proof.
  intros V c st0 st df tcol tval limit Hcat Hquo Hcol Hnew HL. unfold sdmap_new in Hnew. destruct (thresholds _ _ _) as [ok|] eqn:Hok; [|discriminate]. clear Hnew.
  destruct (visits df tcol tval _ _ _ ok Hcat Hquo Hcol Hok) as (d & t & E1 & E2 & _ & _).
  unfold sdmap_fit_within, sdmap_fit. rewrite all_str_columns by auto. cbn [negb]. rewrite E1. cbn [bind]. rewrite E2. cbn [bind]. destruct (is_empty t); auto.
  destruct (target_mask df tcol (VStr tval)) as [mask|]; cbn [bind]; auto. destruct (population df mask) as [TP FP].
  destruct (tree_facts _ _ _ _ _ _ _ _ Hcat Hquo Hcol (conj E1 E2)) as (ok' & o & Hok' & _ & Ho & T & G & IR & CR). rewrite Hok in Hok'. injection Hok' as <-.
  destruct (thresholds_supported _ _ _ _ Hok) as [_ Hmono].
  pose proof (one_each0 df tcol tval ok _ Hcat (fun Y H => proj1 (IR Y) H)) as O. pose proof (width0 df tcol _ _ ok Hcol G) as W.
  apply (fpgrowth_enough (Uk df tcol) (Uk_nominal df tcol) (U_key df tcol Hquo) ok Hmono c (Sel tcol EQUAL (VStr tval)) TP FP Hok limit _ _ _ _ [] _ G T O).
  - lia.
  - destruct (proj1 T) as (_ & _ & _ & _ & ->). unfold header_of. rewrite map_length. lia.
Qed.
(** SDMapStar, *)
Theorem C84_sdmapstar : forall V (c : star_config V) st0 st df tcol tval limit, categorical df -> distinct_keys df tcol -> has_column df tcol ->
  star_new c = Ok st0 -> length (df_cols df) < limit -> star_fit_within limit c st df tcol tval = star_fit c st df tcol tval.
Proof.
  intros V c st0 st df tcol tval limit Hcat Hquo Hcol Hnew HL. unfold star_new, sdmap_new in Hnew. destruct (thresholds _ _ _) as [ok|] eqn:Hok; [|discriminate]. clear Hnew.
  destruct (visits df tcol tval _ _ _ ok Hcat Hquo Hcol Hok) as (d & t & E1 & E2 & _ & _).
  unfold star_fit_within, star_fit. rewrite all_str_columns by auto. cbn [negb].
  destruct (target_mask df tcol (VStr tval)) as [mask|]; cbn [bind]; auto. destruct (population df mask) as [TP FP].
  rewrite E1. cbn [bind]. rewrite E2. cbn [bind]. destruct (is_empty t); auto.
  destruct (tree_facts _ _ _ _ _ _ _ _ Hcat Hquo Hcol (conj E1 E2)) as (ok' & o & Hok' & _ & Ho & T & G & IR & CR). rewrite Hok in Hok'. injection Hok' as <-.
  destruct (thresholds_supported _ _ _ _ Hok) as [_ Hmono].
  pose proof (one_each0 df tcol tval ok _ Hcat (fun Y H => proj1 (IR Y) H)) as O. pose proof (width0 df tcol _ _ ok Hcol G) as W.
  apply (star_fpgrowth_enough (Uk df tcol) (Uk_nominal df tcol) (U_key df tcol Hquo) ok Hmono c (Sel tcol EQUAL (VStr tval)) TP FP Hok limit _ _ _ _ [] _ G T O).
  - lia.
  - destruct (proj1 T) as (_ & _ & _ & _ & ->). unfold header_of. rewrite map_length. lia.
Qed.
(** VLSD, in both representations: two calls fewer than the dataset has columns; *)
Theorem C84_vlsd : forall Seq V impl rows (c : vl_config V) (st : vl_state Seq V) df tcol tval limit, representation Seq impl rows -> categorical df -> has_column df tcol ->
  length (df_cols df) - 2 <= limit -> vlsd_fit_within limit impl c st df tcol tval = vlsd_fit impl c st df tcol tval.
Proof.
  intros Seq V impl rows c st df tcol tval limit R Hcat Hcol HL. destruct R; [apply sets_enough|apply bits_enough]; auto.
Qed.
(** BSD, CBSD and CPBSD: one call more than [max_depth], on every dataset; *)
Theorem C84_bsd : forall V (c : bsd_config V) st df tcol tval limit, (bc_max_depth c < Z.of_nat limit)%Z -> 0 < limit ->
  bsd_fit_within limit c st df tcol tval = bsd_fit c st df tcol tval.
Proof. intros. apply bsd_fit_enough; auto. Qed.
Lemma reduced_columns : forall k df tcol, length (df_cols (reduce_categories k df tcol)) = length (df_cols df).
Proof. intros k df tcol. rewrite reduce_cols. destruct (_ =? _)%Z; rewrite ?map_length; reflexivity. Qed.
(** IDSD: one call more than [max_complexity], or as many as there are columns when it is not given. *)
Theorem C84_idsd : forall c st df tcol tval limit, categorical df -> has_column df tcol ->
  (if (ic_max c =? -1)%Z then length (df_cols df) <= limit else (ic_max c < Z.of_nat limit)%Z) ->
  idsd_fit_within limit c st df tcol tval = idsd_fit c st df tcol tval.
Proof.
  intros c st df tcol tval limit Hcat Hcol HL. unfold idsd_fit_within, idsd_fit. destruct (negb (all_nominal df)); auto.
  destruct (col_get (df_cols df) tcol) as [col|] eqn:Ec; auto. destruct (negb (existsb _ col)); auto.
  destruct (target_mask df tcol (VStr tval)) as [mask|]; cbn [bind]; auto. cbv zeta.
  apply fold_res_ext. intros st2 complexity Ic. apply in_seq in Ic.
  assert (CD : categorical (reduce_categories (ic_cats c) df tcol)) by (apply reduce_categorical; auto).
  apply grow_equal; cbn [app length]; try lia.
  - apply (sels_nodup _ tcol); auto.
  - apply (sels_nominal _ tcol); auto.
  - rewrite reduced_columns in Ic. destruct (ic_max c =? -1)%Z; [|lia].
    destruct (df_cols df) as [|x l] eqn:El; [destruct Hcol as (cc & H); rewrite El in H; discriminate|]. cbn [length] in *. lia.
Qed.
(** Below these numbers: a run that ends within the limit (with no RecursionError) ends as fit does. *)
Theorem C84_finished : forall limit df tcol tval, categorical df -> has_column df tcol ->
  (forall V (c : sd_config V) st0 st st', distinct_keys df tcol -> sdmap_new c = Ok st0 -> sdmap_fit_within limit c st df tcol tval = Ok st' -> sdmap_fit c st df tcol tval = Ok st') /\
  (forall V (c : star_config V) st0 st st', distinct_keys df tcol -> star_new c = Ok st0 -> star_fit_within limit c st df tcol tval = Ok st' -> star_fit c st df tcol tval = Ok st') /\
  (forall Seq V impl rows (c : vl_config V) (st st' : vl_state Seq V), representation Seq impl rows -> vlsd_fit_within limit impl c st df tcol tval = Ok st' -> vlsd_fit impl c st df tcol tval = Ok st') /\
  (forall V (c : bsd_config V) st st', bsd_fit_within limit c st df tcol tval = Ok st' -> bsd_fit c st df tcol tval = Ok st') /\
  (forall c st st', idsd_fit_within limit c st df tcol tval = Ok st' -> idsd_fit c st df tcol tval = Ok st').
Proof.
  intros limit df tcol tval Hcat Hcol. set (n := limit + length (df_cols df)).
  repeat split; intros.
  - rewrite <- (C84_sdmap V c st0 st df tcol tval (S n)); auto; [|unfold n; lia]. apply (proj1 (fits_more limit (S n) ltac:(unfold n; lia))). auto.
  - rewrite <- (C84_sdmapstar V c st0 st df tcol tval (S n)); auto; [|unfold n; lia]. apply (proj1 (proj2 (fits_more limit (S n) ltac:(unfold n; lia)))). auto.
  - rewrite <- (C84_vlsd Seq V impl rows c st df tcol tval n); auto; [|unfold n; lia]. apply (proj1 (proj2 (proj2 (fits_more limit n ltac:(unfold n; lia))))). auto.
  - rewrite <- (C84_bsd V c st df tcol tval (limit + S (Z.to_nat (bc_max_depth c)))); [|lia|lia].
    apply (proj1 (proj2 (proj2 (proj2 (fits_more limit (limit + S (Z.to_nat (bc_max_depth c))) ltac:(lia)))))). auto.
  - rewrite <- (C84_idsd c st df tcol tval (n + S (Z.to_nat (ic_max c)))); auto.
    + apply (proj2 (proj2 (proj2 (proj2 (fits_more limit (n + S (Z.to_nat (ic_max c))) ltac:(unfold n; lia)))))). auto.
    + destruct (_ =? _)%Z; unfold n; lia.
Qed.
(** * The numbers are the least ones *)
(** The rows of [ex_same] are equal: with SDMap the four calls of _generate_all_combinations are open at once inside the call of _fpgrowth. *)
Definition ex_same : dataframe := rows3 [("x", "u", "w", "p"); ("x", "u", "w", "p")].
Definition is_ok {A} (r : res A) : bool := match r with Ok _ => true | _ => false end.
Example C84_sdmap_tight : categorical ex_same /\ distinct_keys ex_same "class" /\ has_column ex_same "class" /\ length (df_cols ex_same) = 4 /\
  sdmap_fit_within 4 toy_config (SDS 0 0 None) ex_same "class" "p" = Err OutOfFuel /\
  is_ok (sdmap_fit_within 5 toy_config (SDS 0 0 None) ex_same "class" "p") = true /\
  star_fit_within 4 (ps_config 0 1) (StarS (SDS 0 0 None) [] 0 0) ex_same "class" "p" = Err OutOfFuel /\
  is_ok (star_fit_within 5 (ps_config 0 1) (StarS (SDS 0 0 None) [] 0 0) ex_same "class" "p") = true.
Proof. destruct (rows3_ok [("x", "u", "w", "p"); ("x", "u", "w", "p")]) as (A & B & C). split; [exact A|]. split; [exact B|]. split; [exact C|]. split; [reflexivity|]. repeat split; vm_compute; reflexivity. Qed.
Example C84_vlsd_tight : let c := vlsd_config PiatetskyShapiro PSOptimisticEstimate2 (-(10)) (-(10)) NO_ORDER NO_ORDER true in
  length (df_cols (rows3 rows_b)) = 4 /\ vlsd_fit_within 1 with_sets c vlsd_new (rows3 rows_b) "class" "p" = Err OutOfFuel /\
  vlsd_fit_within 1 with_bitsets c vlsd_new (rows3 rows_b) "class" "p" = Err OutOfFuel /\
  is_ok (vlsd_fit_within 2 with_sets c vlsd_new (rows3 rows_b) "class" "p") = true /\ is_ok (vlsd_fit_within 2 with_bitsets c vlsd_new (rows3 rows_b) "class" "p") = true.
Proof. cbv zeta. split; [reflexivity|]. repeat split; vm_compute; reflexivity. Qed.
Example C84_bsd_tight : let c := wracc_config CBSD 0 3 1 in bc_max_depth c = 1%Z /\
  bsd_fit_within 1 c (bsd_new c) toy "class" "p" = Err OutOfFuel /\ is_ok (bsd_fit_within 2 c (bsd_new c) toy "class" "p") = true.
Proof. cbv zeta. split; [reflexivity|]. repeat split; vm_compute; reflexivity. Qed.
Example C84_idsd_tight : let c := ex_config 3 (-1) 0 (XFin 0) in ic_max c = (-1)%Z /\ length (df_cols ex_data) = 3 /\ categorical ex_data /\ has_column ex_data "class" /\
  idsd_fit_within 2 c idsd_new ex_data "class" "p" = Err OutOfFuel /\ is_ok (idsd_fit_within 3 c idsd_new ex_data "class" "p") = true.
Proof. cbv zeta. split; [reflexivity|]. split; [reflexivity|]. split; [apply ex_rows_ok|]. split; [eexists; reflexivity|]. split; vm_compute; reflexivity. Qed.
Print Assumptions C84_sdmap. Print Assumptions C84_sdmapstar. Print Assumptions C84_vlsd. Print Assumptions C84_bsd. Print Assumptions C84_idsd. Print Assumptions C84_finished.
