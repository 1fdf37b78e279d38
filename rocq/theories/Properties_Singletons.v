(** C81: the measures are singletons, for every program of the client. *)
From Verif Require Import SingletonModel.
From Coq Require Import Lia.
Open Scope string_scope.
Open Scope list_scope.
Open Scope nat_scope.

(** * Specification *)
(** The class of the package that is [c] itself or the nearest ancestor of [c]. *)
Inductive nearest : cls -> lib -> Prop :=
| near_lib : forall l, nearest (Lib l) l
| near_sub : forall n s p l, nearest p l -> nearest (Sub n s p) l.
Definition abstract (c : cls) : Prop := c = QualityBase \/ c = CredBase.
(** Step [i] of the program built an instance of [c] and got the object [o]. *)
Definition built (prog : list action) (outs : list outcome) (i : nat) (c : cls) (o : nat) : Prop :=
  nth_error prog i = Some (New c) /\ nth_error outs i = Some (Obj o).
(** [type(o)] at the end. *)
Definition type_of (w : world) (o : nat) (c : cls) : Prop := nth_error (w_objects w) o = Some c.
(** The objects that a step handed to the client. *)
Definition handed (r : outcome) (o : nat) : Prop := match r with Obj x => x = o | Dict d => In o (map snd d) | Raised _ => False end.
(** The client never builds an instance of a subclass of a class of the package. *)
Definition no_subclass (prog : list action) : Prop := forall c l, In (New c) prog -> nearest c l -> c = Lib l.

(** * Proofs *)
Lemma lib_eq_dec : forall a b : lib, {a = b} + {a <> b}.
Proof. decide equality; [decide equality; decide equality|decide equality]. Qed.
Lemma name_inj : forall a b, lib_name a = lib_name b -> a = b.
Proof. intros [[[]| |]|[]] [[[]| |]|[]] H; try reflexivity; discriminate H. Qed.
Lemma slot_id : forall l, slot l = l.
Proof. intros [[[]| |]|[]]; reflexivity. Qed.
Lemma new_nearest : forall c l, new_of c = Some l <-> nearest c l.
Proof.
  induction c as [| |m|n s p IH]; intros l; cbn [new_of].
  - split; intros H; [discriminate|inversion H].
  - split; intros H; [discriminate|inversion H].
  - split; intros H; [injection H as <-; constructor|inversion H; subst; auto].
  - split; intros H; [constructor; apply IH; auto|inversion H; subst; apply IH; auto].
Qed.
Definition inv (w : world) : Prop :=
  (forall k o, attr_get k (w_singletons w) = Some o -> exists l c, k = lib_name l /\ nth_error (w_objects w) o = Some c /\ new_of c = Some l) /\
  (forall o c l, nth_error (w_objects w) o = Some c -> new_of c = Some l -> attr_get (lib_name l) (w_singletons w) = Some o) /\
  (forall o c, nth_error (w_objects w) o = Some c -> ~ abstract c).
Definition ext (w w' : world) : Prop := exists more, w_objects w' = w_objects w ++ more.
Lemma ext_refl : forall w, ext w w.
Proof. intros w. exists []. rewrite app_nil_r. reflexivity. Qed.
Lemma ext_trans : forall a b c, ext a b -> ext b c -> ext a c.
Proof. intros a b c [m E] [m' E']. exists (m ++ m'). rewrite E', E, app_assoc. reflexivity. Qed.
Lemma ext_type : forall w w' o c, ext w w' -> nth_error (w_objects w) o = Some c -> nth_error (w_objects w') o = Some c.
Proof. intros w w' o c [m E] H. rewrite E, nth_error_app1; auto. apply nth_error_Some. congruence. Qed.
Lemma inv_start : inv start.
Proof. split; [|split]; intros; try discriminate; destruct o; discriminate. Qed.

Lemma nth_snoc : forall {A} (l : list A) x o y, nth_error (l ++ [x]) o = Some y -> nth_error l o = Some y \/ o = length l /\ y = x.
Proof.
  intros A l x o y H. destruct (Nat.lt_ge_cases o (length l)) as [L|L]; [rewrite nth_error_app1 in H; auto|].
  rewrite nth_error_app2 in H by auto. destruct (o - length l) as [|k] eqn:E; cbn in H; [right; split; [lia|congruence]|destruct k; discriminate].
Qed.
Lemma nth_last : forall {A} (l : list A) x, nth_error (l ++ [x]) (length l) = Some x.
Proof. intros A l x. rewrite nth_error_app2, Nat.sub_diag by auto. reflexivity. Qed.

Lemma Forall2_weaken : forall {A B} (P Q : A -> B -> Prop) l m, (forall a b, P a b -> Q a b) -> Forall2 P l m -> Forall2 Q l m.
Proof. intros A B P Q l m H F. induction F; constructor; auto. Qed.

(** What [c()] gives. *)
Lemma construct_spec : forall w c r w', inv w -> construct w c = (r, w') ->
  inv w' /\ ext w w' /\
  ((abstract c /\ r = Err TypeError /\ w' = w) \/
   (~ abstract c /\ exists o, r = Ok o /\
     ((exists d l, new_of c = Some l /\ new_of d = Some l /\ nth_error (w_objects w) o = Some d /\ w' = w) \/
      ((forall l, new_of c = Some l -> forall x d, nth_error (w_objects w) x = Some d -> new_of d <> Some l) /\
       o = length (w_objects w) /\ w_objects w' = w_objects w ++ [c])))).
Proof.
  intros w c r w' (I1 & I2 & I3) E. unfold construct in E.
  assert (Ab : abstract c \/ ~ abstract c) by (destruct c; [left; left|left; right|right; intros []|right; intros []]; auto; discriminate).
  assert (Fr : ~ abstract c -> fresh w c = (Ok (length (w_objects w)), World (w_objects w ++ [c]) (w_singletons w))).
  { intros N. destruct c; try reflexivity; exfalso; apply N; [left|right]; auto. }
  destruct (new_of c) as [l|] eqn:En.
  - assert (NA : ~ abstract c) by (intros [->| ->]; discriminate). rewrite slot_id in E.
    destruct (attr_get (lib_name l) (w_singletons w)) as [o|] eqn:Ea.
    + injection E as <- <-. split; [split; auto|]. split; [apply ext_refl|]. right. split; auto. exists o. split; auto. left.
      destruct (I1 _ _ Ea) as (l' & d & El & Ed & End). apply name_inj in El. subst l'. exists d, l. auto.
    + rewrite (Fr NA) in E. cbn [w_objects w_singletons] in E. injection E as <- <-.
      assert (No : forall x d, nth_error (w_objects w) x = Some d -> new_of d <> Some l).
      { intros x d Hx Hd. rewrite (I2 x d l Hx Hd) in Ea. discriminate. }
      split; [|split; [exists [c]; reflexivity|]].
      * split; [|split]; cbn [w_objects w_singletons].
        -- intros k o H. cbn [attr_get] in H. destruct (String.eqb_spec (lib_name l) k) as [<-|Nk].
           ++ injection H as <-. exists l, c. split; auto. split; auto. apply nth_last.
           ++ destruct (I1 _ _ H) as (l' & d & El & Ed & End). exists l', d. split; auto. split; auto. rewrite nth_error_app1; auto. apply nth_error_Some. congruence.
        -- intros o d l' Ho Hd. cbn [attr_get]. apply nth_snoc in Ho. destruct Ho as [Ho|[-> ->]].
           ++ destruct (String.eqb_spec (lib_name l) (lib_name l')) as [Ek|_]; [|apply (I2 o d); auto]. apply name_inj in Ek. subst l'. exfalso. eapply No; eauto.
           ++ assert (l' = l) by congruence. subst l'. rewrite String.eqb_refl. reflexivity.
        -- intros o d Ho. apply nth_snoc in Ho. destruct Ho as [Ho|[-> ->]]; auto. apply (I3 o); auto.
      * right. split; auto. eexists. split; [reflexivity|]. right. split; [|split; reflexivity]. intros l0 E0. assert (l0 = l) by congruence. subst l0. exact No.
  - destruct Ab as [A|NA].
    + assert (Ef : fresh w c = (Err TypeError, w)) by (destruct A as [->| ->]; reflexivity). rewrite Ef in E. injection E as <- <-.
      split; [split; auto|]. split; [apply ext_refl|]. left. auto.
    + rewrite (Fr NA) in E. injection E as <- <-. split; [|split; [exists [c]; reflexivity|]].
      * split; [|split]; cbn [w_objects w_singletons].
        -- intros k o H. destruct (I1 _ _ H) as (l' & d & El & Ed & End). exists l', d. split; auto. split; auto. rewrite nth_error_app1; auto. apply nth_error_Some. congruence.
        -- intros o d l' Ho Hd. apply nth_snoc in Ho. destruct Ho as [Ho|[-> ->]]; [apply (I2 o d); auto|congruence].
        -- intros o d Ho. apply nth_snoc in Ho. destruct Ho as [Ho|[-> ->]]; auto. apply (I3 o); auto.
      * right. split; auto. eexists. split; [reflexivity|]. right. split; [discriminate|]. split; reflexivity.
Qed.
(** The object is of the family of the class; it has the class itself unless the family already had an object. *)
Lemma construct_type : forall w c o w', inv w -> construct w c = (Ok o, w') -> exists d, nth_error (w_objects w') o = Some d /\ new_of d = new_of c.
Proof.
  intros w c o w' I E. destruct (construct_spec w c _ w' I E) as (_ & _ & [(_ & X & _)|(_ & o' & Eo & H)]); [discriminate|]. injection Eo as <-.
  destruct H as [(d & l & E1 & E2 & E3 & ->)|(_ & -> & ->)]; [exists d; split; congruence|exists c; split; auto; apply nth_last].
Qed.
Lemma construct_again : forall w c o w', inv w -> construct w c = (Ok o, w') -> new_of c <> None -> forall c', new_of c' = new_of c -> construct w' c' = (Ok o, w').
Proof.
  intros w c o w' I E N c' Ec. destruct (construct_spec w c _ w' I E) as (I' & _). destruct (construct_type w c o w' I E) as (d & Ed & End).
  unfold construct. rewrite Ec. destruct (new_of c) as [l|] eqn:El; [|contradiction]. rewrite slot_id. destruct I' as (_ & I2 & _). rewrite (I2 o d l Ed End). reflexivity.
Qed.
Lemma entries_spec : forall l w, inv w -> exists d w', entries w l = (Ok d, w') /\ inv w' /\ ext w w' /\ length d = length l /\
  Forall2 (fun m (e : string * nat) => exists c, nth_error (w_objects w') (snd e) = Some c /\ new_of c = Some (QM m) /\ get_name c = Ok (fst e)) l d /\
  (forall x c, nth_error (w_objects w') x = Some c -> nth_error (w_objects w) x = Some c \/ exists l, c = Lib l).
Proof.
  assert (NN : forall c l, new_of c = Some l -> exists s, get_name c = Ok s).
  { induction c as [| |m|n s p IH]; intros l H; try discriminate; [eexists; reflexivity|]. cbn [get_name]. destruct s; [eexists; reflexivity|]. apply (IH l); exact H. }
  induction l as [|m l IH]; intros w I; [exists [], w; split; [reflexivity|]; split; [exact I|]; split; [apply ext_refl|]; split; [reflexivity|]; split; [constructor|auto]|]. cbn [entries].
  destruct (construct w (Lib (QM m))) as [r w1] eqn:E1. destruct (construct_spec _ _ _ _ I E1) as (I1 & X1 & [([A|A] & _)|(_ & o & -> & H)]); try discriminate.
  destruct (construct_type _ _ _ _ I E1) as (c & Ec & En). rewrite Ec. destruct (NN c (QM m) En) as [name Nm]. rewrite Nm.
  rewrite (construct_again _ _ _ _ I E1 ltac:(discriminate) (Lib (QM m)) eq_refl). destruct (IH w1 I1) as (d & w' & Ed & I' & X' & Ld & F & T). rewrite Ed.
  exists ((name, o) :: d), w'. split; auto. split; auto. split; [eapply ext_trans; eauto|]. split; [cbn; congruence|]. split.
  - constructor; auto. exists c. cbn [fst snd]. split; auto. apply (ext_type w1); auto.
  - intros x c' Hx. apply T in Hx. destruct Hx as [Hx|Hx]; auto. destruct H as [(_ & _ & _ & _ & _ & ->)|(_ & _ & Ew)]; auto.
    rewrite Ew in Hx. apply nth_snoc in Hx. destruct Hx as [Hx|[_ ->]]; auto. right. eexists. reflexivity.
Qed.
Lemma do_inv : forall w a r w', inv w -> do_action w a = (r, w') -> inv w' /\ ext w w'.
Proof.
  intros w a r w' I E. destruct a as [c|o|o]; cbn [do_action] in E.
  - destruct (construct w c) as [x y] eqn:Ex. injection E as _ <-. destruct (construct_spec _ _ _ _ I Ex) as (A & B & _). auto.
  - unfold copy_obj in E. destruct (nth_error (w_objects w) o) as [c|]; [|injection E as _ <-; split; auto; apply ext_refl].
    destruct (construct w c) as [x y] eqn:Ex. injection E as _ <-. destruct (construct_spec _ _ _ _ I Ex) as (A & B & _). auto.
  - unfold estimate_of in E. destruct (nth_error (w_objects w) o) as [c|]; [|injection E as _ <-; split; auto; apply ext_refl].
    destruct (new_of c) as [[s|k]|]; try (injection E as _ <-; split; auto; apply ext_refl).
    destruct (entries_spec (estimated s) w I) as (d & w1 & Ed & I' & X & _). rewrite Ed in E. injection E as _ <-. auto.
Qed.
Lemma run_at : forall prog w outs w', inv w -> run_program w prog = (outs, w') ->
  inv w' /\ ext w w' /\
  (forall i a, nth_error prog i = Some a -> exists w1 r w2, inv w1 /\ ext w w1 /\ do_action w1 a = (r, w2) /\ nth_error outs i = Some r /\ ext w2 w' /\
     exists outs1, run_program w (firstn i prog) = (outs1, w1) /\ outs1 = firstn i outs).
Proof.
  induction prog as [|a prog IH]; intros w outs w' I E; cbn [run_program] in E.
  - injection E as <- <-. split; auto. split; [apply ext_refl|]. intros [|i] a H; discriminate.
  - destruct (do_action w a) as [r w1] eqn:Ea. destruct (run_program w1 prog) as [os w2] eqn:Er. injection E as <- <-.
    destruct (do_inv _ _ _ _ I Ea) as [I1 X1]. destruct (IH w1 os w2 I1 Er) as (I2 & X2 & H). split; auto. split; [eapply ext_trans; eauto|].
    intros [|i] b Hb; cbn [nth_error] in Hb |- *.
    + injection Hb as <-. exists w, r, w1. split; auto. split; [apply ext_refl|]. split; auto. split; auto. split; auto. exists []. split; reflexivity.
    + destruct (H i b Hb) as (w3 & r3 & w4 & A & B & C & D & F & outs1 & G & K). exists w3, r3, w4. split; auto. split; [eapply ext_trans; eauto|]. split; auto. split; auto. split; auto.
      exists (r :: outs1). cbn [firstn run_program]. rewrite Ea, G, K. split; reflexivity.
Qed.
(** Every object was handed to the client by some step. *)
Lemma do_handed : forall w a r w', inv w -> do_action w a = (r, w') -> forall x c, nth_error (w_objects w') x = Some c ->
  nth_error (w_objects w) x = Some c \/ handed r x.
Proof.
  intros w a r w' I E x c Hx.
  assert (K : forall q o y, construct w q = (o, y) -> nth_error (w_objects y) x = Some c -> nth_error (w_objects w) x = Some c \/ handed (obj_outcome o) x).
  { intros q o y Eq Hy. destruct (construct_spec _ _ _ _ I Eq) as (_ & _ & [(_ & _ & ->)|(_ & o' & -> & H)]); auto.
    destruct H as [(_ & _ & _ & _ & _ & ->)|(_ & -> & Ew)]; auto. rewrite Ew in Hy. apply nth_snoc in Hy. destruct Hy as [Hy|[-> _]]; auto. right. reflexivity. }
  destruct a as [q|o|o]; cbn [do_action] in E.
  - destruct (construct w q) as [y z] eqn:Ey. injection E as <- <-. apply (K q y z); auto.
  - unfold copy_obj in E. destruct (nth_error (w_objects w) o) as [q|]; [|injection E as _ <-; auto].
    destruct (construct w q) as [y z] eqn:Ey. injection E as <- <-. apply (K q y z); auto.
  - unfold estimate_of in E. destruct (nth_error (w_objects w) o) as [q|]; [|injection E as _ <-; auto].
    destruct (new_of q) as [[s|k]|]; try (injection E as _ <-; auto; fail).
    assert (S2 : estimated s = [] \/ exists m, estimated s = [m]) by (destruct s as [[]| |]; cbn; eauto).
    destruct S2 as [S0|[m S1]]; [rewrite S0 in E; cbn in E; injection E as _ <-; auto|]. rewrite S1 in E. cbn [entries] in E.
    destruct (construct w (Lib (QM m))) as [y z] eqn:Ey. pose proof (construct_spec _ _ _ _ I Ey) as (_ & _ & [([A|A] & _)|(_ & o1 & -> & H)]); try discriminate.
    destruct (construct_type _ _ _ _ I Ey) as (d & Ed & _). rewrite Ed in E.
    pose proof (construct_again _ _ _ _ I Ey ltac:(discriminate) (Lib (QM m)) eq_refl) as Ag. rewrite Ag in E.
    destruct (get_name d) as [nm|e] eqn:En.
    + injection E as <- <-. cbn [handed map snd]. destruct (K _ _ _ Ey Hx) as [Hw|Hh]; auto. right. left. cbn in Hh. auto.
    + exfalso. destruct (entries_spec [m] w I) as (d0 & w0 & E0 & _). cbn [entries] in E0. rewrite Ey, Ed, En in E0. discriminate.
Qed.
Lemma run_handed : forall prog w outs w', inv w -> run_program w prog = (outs, w') -> forall x c, nth_error (w_objects w') x = Some c ->
  nth_error (w_objects w) x = Some c \/ exists j r, nth_error outs j = Some r /\ handed r x.
Proof.
  induction prog as [|a prog IH]; intros w outs w' I E x c Hx; cbn [run_program] in E; [injection E as <- <-; auto|].
  destruct (do_action w a) as [r w1] eqn:Ea. destruct (run_program w1 prog) as [os w2] eqn:Er. injection E as <- <-.
  destruct (do_inv _ _ _ _ I Ea) as [I1 X1]. destruct (IH w1 os w2 I1 Er x c Hx) as [H|(j & r' & H & Hh)].
  - destruct (do_handed _ _ _ _ I Ea x c H) as [H'|H']; auto. right. exists 0, r. auto.
  - right. exists (S j), r'. auto.
Qed.

(** * C81 *)
(** Building an instance never fails, unless the class is one of the two abstract ones (TypeError). *)
Theorem C81_construction : forall prog outs w i c, run_program start prog = (outs, w) -> nth_error prog i = Some (New c) ->
  (~ abstract c -> exists o, nth_error outs i = Some (Obj o)) /\ (abstract c -> nth_error outs i = Some (Raised TypeError)).
Proof.
  intros prog outs w i c E H. destruct (run_at prog start outs w inv_start E) as (_ & _ & R). destruct (R i _ H) as (w1 & r & w2 & I1 & _ & Ea & Eo & _).
  cbn [do_action] in Ea. destruct (construct w1 c) as [q w3] eqn:Ec. injection Ea as <- <-. destruct (construct_spec _ _ _ _ I1 Ec) as (_ & _ & [(A & -> & _)|(N & o & -> & _)]);
  split; intros X; auto; try contradiction. exists o. exact Eo.
Qed.
Lemma built_type : forall prog outs w i c o, run_program start prog = (outs, w) -> built prog outs i c o -> exists d, type_of w o d /\ new_of d = new_of c.
Proof.
  intros prog outs w i c o E [H Ho]. destruct (run_at prog start outs w inv_start E) as (_ & _ & R). destruct (R i _ H) as (w1 & r & w2 & I1 & _ & Ea & Eo & X & _).
  cbn [do_action] in Ea. destruct (construct w1 c) as [q w3] eqn:Ec. injection Ea as <- <-. rewrite Eo in Ho. destruct q as [o'|e]; [|discriminate]. injection Ho as ->.
  destruct (construct_type _ _ _ _ I1 Ec) as (d & Ed & En). exists d. split; auto. apply (ext_type w3); auto.
Qed.
(** One instance per class of the package, in every program: two instances (of these classes or of subclasses of the client) are the same
    object exactly if the nearest class of the package is the same. *)
Theorem C81_one_instance : forall prog outs w i j c c' l l' o o', run_program start prog = (outs, w) ->
  built prog outs i c o -> built prog outs j c' o' -> nearest c l -> nearest c' l' -> (o = o' <-> l = l').
Proof.
  intros prog outs w i j c c' l l' o o' E B B' N N'. apply new_nearest in N. apply new_nearest in N'.
  destruct (built_type _ _ _ _ _ _ E B) as (d & T & D). destruct (built_type _ _ _ _ _ _ E B') as (d' & T' & D'). rewrite N in D. rewrite N' in D'.
  destruct (run_at prog start outs w inv_start E) as ((_ & I2 & _) & _). split; intros X.
  - subst o'. unfold type_of in *. congruence.
  - subst l'. pose proof (I2 o d l T D). pose proof (I2 o' d' l T' D'). congruence.
Qed.
(** The object is an instance of the nearest class of the package; and of the class itself, if no object of that family existed before. *)
Theorem C81_type : forall prog outs w i c l o, run_program start prog = (outs, w) -> built prog outs i c o -> nearest c l ->
  exists d, type_of w o d /\ nearest d l /\
    ((forall j r x e, j < i -> nth_error outs j = Some r -> handed r x -> type_of w x e -> ~ nearest e l) -> d = c).
Proof.
  intros prog outs w i c l o E B N. destruct (built_type _ _ _ _ _ _ E B) as (d & T & D). exists d. split; auto. apply new_nearest in N. split; [apply new_nearest; congruence|].
  intros F. destruct B as [H Ho]. destruct (run_at prog start outs w inv_start E) as (_ & _ & R). destruct (R i _ H) as (w1 & r & w2 & I1 & _ & Ea & Eo & X & outs1 & Er1 & Eouts).
  cbn [do_action] in Ea. destruct (construct w1 c) as [q w3] eqn:Ec. injection Ea as <- <-. rewrite Eo in Ho. destruct q as [o'|e]; [|discriminate]. injection Ho as ->.
  destruct (construct_spec _ _ _ _ I1 Ec) as (_ & X3 & [(_ & Y & _)|(_ & o'' & Eq & K)]); [discriminate|]. injection Eq as <-. destruct K as [(e & l' & E1 & E2 & E3 & ->)|(_ & -> & Ew)].
  - exfalso. destruct (run_handed _ _ _ _ inv_start Er1 o e E3) as [Z|(j & r & Hj & Hh)]; [destruct o; discriminate|].
    assert (Lj : j < i). { apply Nat.lt_nge. intros Li. assert (Y : nth_error outs1 j = None) by (apply nth_error_None; rewrite Eouts; etransitivity; [apply firstn_le_length|exact Li]). congruence. }
    apply (F j r o e Lj); auto; [|apply (ext_type w1); auto|apply new_nearest; congruence].
    rewrite Eouts in Hj. clear - Hj Lj. revert outs i Lj Hj. induction j as [|j IH]; intros outs [|i] Lj Hj; try lia; destruct outs as [|y outs]; cbn in *; try discriminate; auto. apply (IH outs i); auto. lia.
  - unfold type_of in T. assert (Y : nth_error (w_objects w) (length (w_objects w1)) = Some c) by (apply (ext_type w3); auto; rewrite Ew; apply nth_last). congruence.
Qed.
Lemma run_libs : forall prog w outs w', inv w -> run_program w prog = (outs, w') -> no_subclass prog ->
  (forall x c l, nth_error (w_objects w) x = Some c -> nearest c l -> c = Lib l) -> forall x c l, nth_error (w_objects w') x = Some c -> nearest c l -> c = Lib l.
Proof.
  induction prog as [|a prog IH]; intros w outs w' I E N H; cbn [run_program] in E; [injection E as <- <-; auto|].
  destruct (do_action w a) as [r w1] eqn:Ea. destruct (run_program w1 prog) as [os w2] eqn:Er. injection E as <- <-.
  destruct (do_inv _ _ _ _ I Ea) as [I1 X1]. apply (IH w1 os w2); auto; [intros c l Hc; apply N; right; auto|].
  assert (K : forall q o y, (forall l, nearest q l -> q = Lib l) -> construct w q = (o, y) -> forall x c l, nth_error (w_objects y) x = Some c -> nearest c l -> c = Lib l).
  { intros q o y Hq Eq x c l Hy. destruct (construct_spec _ _ _ _ I Eq) as (_ & _ & [(_ & _ & ->)|(_ & o' & -> & Z)]); [apply H with (1 := Hy)|].
    destruct Z as [(_ & _ & _ & _ & _ & ->)|(_ & -> & Ew)]; [apply H with (1 := Hy)|]. rewrite Ew in Hy. apply nth_snoc in Hy. destruct Hy as [Hy|[_ ->]]; [apply H with (1 := Hy)|apply Hq]. }
  destruct a as [q|o|o]; cbn [do_action] in Ea.
  - destruct (construct w q) as [y z] eqn:Ey. injection Ea as _ <-. apply (K q y z); auto. intros l. apply N. left; auto.
  - unfold copy_obj in Ea. destruct (nth_error (w_objects w) o) as [q|] eqn:Eq; [|injection Ea as _ <-; auto].
    destruct (construct w q) as [y z] eqn:Ey. injection Ea as _ <-. apply (K q y z); auto. intros l. apply H with (1 := Eq).
  - unfold estimate_of in Ea. destruct (nth_error (w_objects w) o) as [q|]; [|injection Ea as _ <-; auto].
    destruct (new_of q) as [[s|k]|]; try (injection Ea as _ <-; auto; fail).
    destruct (entries_spec (estimated s) w I) as (d & w3 & Ed & _ & _ & _ & _ & T). rewrite Ed in Ea. injection Ea as _ <-.
    intros x c l Hx Nc. destruct (T x c Hx) as [Hw|[l' ->]]; [apply (H x); auto|]. inversion Nc; subst. reflexivity.
Qed.
Lemma libs_only : forall prog outs w x c l, run_program start prog = (outs, w) -> no_subclass prog -> type_of w x c -> nearest c l -> c = Lib l.
Proof.
  intros prog outs w x c l E N T. apply (run_libs prog start outs w inv_start E N) with (x := x); auto.
  intros y d k H. destruct y; discriminate H.
Qed.
(** A client without subclasses of the classes of the package: [type(C()) is C], and the objects differ exactly if the classes differ. *)
Theorem C81_library_classes : forall prog outs w, run_program start prog = (outs, w) -> no_subclass prog ->
  (forall i l o, built prog outs i (Lib l) o -> type_of w o (Lib l)) /\
  (forall i j l l' o o', built prog outs i (Lib l) o -> built prog outs j (Lib l') o' -> (o = o' <-> l = l')).
Proof.
  intros prog outs w E N. split.
  - intros i l o B. destruct (built_type _ _ _ _ _ _ E B) as (d & T & D). cbn [new_of] in D. apply new_nearest in D. rewrite <- (libs_only prog outs w o d l E N T D). exact T.
  - intros i j l l' o o' B B'. eapply (C81_one_instance prog outs w i j); eauto; constructor.
Qed.
(** Copies ([copy], [deepcopy], pickling within the process) of a measure of the package, or of a subclass, are the object itself; an instance of a class of
    the client that derives directly from an abstract class is copied to another object of the same class. *)
Theorem C81_copies : forall prog outs w i j o r c, run_program start prog = (outs, w) ->
  nth_error prog i = Some (Copy o) -> nth_error outs i = Some r -> j < i -> (exists q, nth_error outs j = Some q /\ handed q o) -> type_of w o c ->
  ((exists l, nearest c l) -> r = Obj o) /\ ((forall l, ~ nearest c l) -> exists o', r = Obj o' /\ o' <> o /\ type_of w o' c).
Proof.
  intros prog outs w i j o r c E H Hr Lj (q & Hq & Hh) T. destruct (run_at prog start outs w inv_start E) as (Iw & _ & R). destruct (R i _ H) as (w1 & r' & w2 & I1 & _ & Ea & Eo & X & outs1 & Er1 & Eouts).
  assert (r' = r) by congruence. subst r'. clear Eo.
  assert (T1 : nth_error (w_objects w1) o = Some c).
  { destruct (nth_error (w_objects w1) o) as [c1|] eqn:E1.
    - assert (X1 : ext w1 w) by (eapply ext_trans; [apply (do_inv _ _ _ _ I1 Ea)|exact X]). pose proof (ext_type _ _ _ _ X1 E1). unfold type_of in T. congruence.
    - exfalso. assert (Hj1 : nth_error outs1 j = Some q).
      { rewrite Eouts. clear - Hq Lj. revert outs i Lj Hq. induction j as [|j IH]; intros outs [|i] Lj Hq; try lia; destruct outs as [|y outs]; cbn in *; try discriminate; auto. apply (IH outs i); auto. lia. }
      assert (Hj2 : exists a, nth_error (firstn i prog) j = Some a).
      { assert (Len : forall p v os v', run_program v p = (os, v') -> length os = length p).
        { induction p as [|b p IH]; intros v os v' Ep; cbn [run_program] in Ep; [injection Ep as <- _; reflexivity|]. destruct (do_action v b), (run_program w0 p) eqn:Z. injection Ep as <- _. cbn. f_equal. eapply IH; eauto. }
        destruct (nth_error (firstn i prog) j) eqn:Z; [eauto|]. apply nth_error_None in Z. rewrite <- (Len _ _ _ _ Er1) in Z. apply nth_error_None in Z. congruence. }
      destruct Hj2 as [a Ha]. destruct (run_at _ start outs1 w1 inv_start Er1) as (_ & _ & R1). destruct (R1 j a Ha) as (v1 & q' & v2 & J1 & _ & Eb & Eq & Y & _).
      assert (q' = q) by congruence. subst q'.
      assert (Ex : nth_error (w_objects v2) o <> None).
      { destruct a as [k|k|k]; cbn [do_action] in Eb.
        - destruct (construct v1 k) as [z v3] eqn:Ez. injection Eb as <- <-. destruct z as [z|]; [|destruct Hh]. cbn in Hh. subst z. destruct (construct_type _ _ _ _ J1 Ez) as (d & Ed & _). congruence.
        - unfold copy_obj in Eb. destruct (nth_error (w_objects v1) k) as [kc|]; [|injection Eb as <- _; destruct Hh].
          destruct (construct v1 kc) as [z v3] eqn:Ez. injection Eb as <- <-. destruct z as [z|]; [|destruct Hh]. cbn in Hh. subst z. destruct (construct_type _ _ _ _ J1 Ez) as (d & Ed & _). congruence.
        - unfold estimate_of in Eb. destruct (nth_error (w_objects v1) k) as [kc|]; [|injection Eb as <- _; destruct Hh].
          destruct (new_of kc) as [[s|cm]|]; try (injection Eb as <- _; destruct Hh; fail).
          destruct (entries_spec (estimated s) v1 J1) as (d & v3 & Ed & _ & _ & _ & F & _). rewrite Ed in Eb. injection Eb as <- <-. cbn [handed] in Hh.
          apply in_map_iff in Hh. destruct Hh as ([nm y] & <- & Iy). clear - F Iy. induction F as [|m e l d (c & P & _) F IH]; [destruct Iy|destruct Iy as [<-|Iy]; auto; cbn [snd] in *; congruence]. }
      destruct (nth_error (w_objects v2) o) as [z|] eqn:Ez; [|contradiction]. rewrite (ext_type _ _ _ _ Y Ez) in E1. discriminate. }
  cbn [do_action] in Ea. unfold copy_obj in Ea. rewrite T1 in Ea. destruct (construct w1 c) as [z w3] eqn:Ec. injection Ea as <- <-. split.
  - intros [l N]. apply new_nearest in N. unfold construct in Ec. rewrite N, slot_id in Ec. destruct I1 as (_ & I2 & _). rewrite (I2 o c l T1 N) in Ec. injection Ec as <- _. reflexivity.
  - intros N. destruct (construct_spec _ _ _ _ I1 Ec) as (_ & _ & [(A & _)|(_ & o' & -> & K)]); [exfalso; destruct I1 as (_ & _ & I3); apply (I3 o c T1 A)|].
    destruct K as [(d & l & E1 & _)|(_ & -> & Ew)]; [exfalso; apply (N l), new_nearest; auto|]. eexists. split; [reflexivity|]. split.
    + intros <-. rewrite (proj2 (nth_error_None _ _)) in T1; [discriminate|auto].
    + apply (ext_type w3); auto. rewrite Ew. apply nth_last.
Qed.
(** [optimistic_estimate_of()]: for each measure that the class estimates, its only instance, under the name that the instance itself returns;
    without subclasses of the client, the documented names.  ([Unmodelled]: the object does not exist yet.) *)
Theorem C81_estimates : forall prog outs w i o r c s, run_program start prog = (outs, w) ->
  nth_error prog i = Some (EstimateOf o) -> nth_error outs i = Some r -> type_of w o c -> nearest c (QM s) -> r <> Raised Unmodelled ->
  exists d, r = Dict d /\
    Forall2 (fun m (e : string * nat) => exists t, type_of w (snd e) t /\ nearest t (QM m) /\ get_name t = Ok (fst e)) (estimated s) d /\
    (forall j q o' name v m, built prog outs j q o' -> nearest q (QM m) -> In (name, v) d -> (exists t, type_of w v t /\ nearest t (QM m)) -> o' = v) /\
    (no_subclass prog -> map fst d = mo_of (shipped_obj s)).
Proof.
  intros prog outs w i o r c s E H Hr T N NU. destruct (run_at prog start outs w inv_start E) as (Iw & _ & R). destruct (R i _ H) as (w1 & r' & w2 & I1 & _ & Ea & Eo & X & _).
  assert (r' = r) by congruence. subst r'. cbn [do_action] in Ea. unfold estimate_of in Ea.
  destruct (nth_error (w_objects w1) o) as [c1|] eqn:E1; [|injection Ea as <- _; congruence].
  assert (c1 = c). { destruct (do_inv w1 (EstimateOf o) r w2 I1) as [_ X1]; [cbn [do_action]; unfold estimate_of; rewrite E1; exact Ea|]. pose proof (ext_type _ _ _ _ (ext_trans _ _ _ X1 X) E1). unfold type_of in T. congruence. }
  subst c1. apply new_nearest in N. rewrite N in Ea. destruct (entries_spec (estimated s) w1 I1) as (d & w3 & Ed & I3 & X3 & Ld & F & _). rewrite Ed in Ea. injection Ea as <- <-.
  exists d. split; auto.
  assert (F' : Forall2 (fun m (e : string * nat) => exists t, type_of w (snd e) t /\ nearest t (QM m) /\ get_name t = Ok (fst e)) (estimated s) d).
  { eapply Forall2_weaken; [|exact F]. intros m e (t & A & B & C). exists t. split; [apply (ext_type w3); auto|]. split; auto. apply new_nearest; auto. }
  split; auto. split.
  - intros j q o' name v m B Nq _ (t & Tt & Nt). destruct (built_type _ _ _ _ _ _ E B) as (e & Te & De). apply new_nearest in Nq. apply new_nearest in Nt.
    destruct Iw as (_ & I2 & _). pose proof (I2 v t (QM m) Tt Nt). assert (De' : new_of e = Some (QM m)) by congruence. pose proof (I2 o' e (QM m) Te De'). congruence.
  - intros NS. assert (G : map fst d = map (fun m => lib_name (QM m)) (estimated s)).
    { clear - F' NS E. induction F' as [|m e l d (t & A & B & C) F IH]; auto. cbn [map]. f_equal; auto. pose proof (libs_only _ _ _ _ _ _ E NS A B) as ->. cbn [get_name] in C. congruence. }
    rewrite G. destruct s as [[]| |]; reflexivity.
Qed.
(** With subclasses: [type(C()) is C] is false, in both directions.  If the subclass is built first, the class of the package gives an instance of the subclass
    (and the estimates answer with its name); if it is built later, the subclass gives an instance of the class of the package. *)
Definition MyWRAcc : cls := Sub 0 (Some "MyWRAcc") (Lib (QM (Plain WRAcc))).
Theorem C81_subclass_refuted :
  (exists outs w, run_program start [New MyWRAcc; New (Lib (QM (Plain WRAcc))); New (Lib (QM (Plain WRAccOptimisticEstimate1))); EstimateOf 1] = (outs, w) /\
     outs = [Obj 0; Obj 0; Obj 1; Dict [("MyWRAcc", 0)]] /\ type_of w 0 MyWRAcc) /\
  (exists outs w, run_program start [New (Lib (QM (Plain WRAcc))); New MyWRAcc] = (outs, w) /\ outs = [Obj 0; Obj 0] /\ type_of w 0 (Lib (QM (Plain WRAcc)))).
Proof. split; do 2 eexists; (split; [reflexivity|]); split; reflexivity. Qed.
Example C81_nonvacuous : exists outs w,
  let prog := [New (Lib (QM (Plain AbsoluteWRAcc))); New (Lib (QM (Plain WRAccOptimisticEstimate1))); EstimateOf 1; New (Lib (QM (Plain WRAcc))); Copy 0;
               New (Sub 1 (Some "Mine") QualityBase); Copy 3; New QualityBase; New (Lib (CM PValueGLM)); EstimateOf 5; New (Lib (QM (Plain AbsoluteWRAcc)))] in
  run_program start prog = (outs, w) /\ no_subclass prog /\
  outs = [Obj 0; Obj 1; Dict [("WRAcc", 2)]; Obj 2; Obj 0; Obj 3; Obj 4; Raised TypeError; Obj 5; Raised AttributeError; Obj 0] /\
  type_of w 0 (Lib (QM (Plain AbsoluteWRAcc))) /\ type_of w 2 (Lib (QM (Plain WRAcc))).
Proof.
  do 2 eexists. cbn zeta. split; [reflexivity|]. split; [|repeat split].
  intros c l Hc N. apply new_nearest in N. cbn [In] in Hc.
  repeat match type of Hc with _ \/ _ => destruct Hc as [Hc|Hc]; [first [discriminate Hc|injection Hc as <-; cbn [new_of] in N; first [discriminate N|injection N as <-; reflexivity]]|] end. destruct Hc.
Qed.
Print Assumptions C81_construction. Print Assumptions C81_one_instance. Print Assumptions C81_type. Print Assumptions C81_library_classes.
Print Assumptions C81_copies. Print Assumptions C81_estimates. Print Assumptions C81_subclass_refuted.
