(** Proofs about AliasModel.v: who can change which object. *)
From Coq Require Import Lia.
From Verif Require Export AliasModel.
Open Scope list_scope.
Open Scope nat_scope.

(** * Specification: client programs *)
(** Is the k-th variable a reference to a part of a SubgroupList (or a Subgroup whose description is one)? *)
Definition borrowed_step (fl : list bool) (o : op) : list bool :=
  fl ++ [match o with
         | GetSubgroup _ _ | GetBits _ _ _ | DefaultPositives _ | DefaultNegatives _ => true
         | NewSubgroup x _ | Description x => nth x fl false
         | _ => false
         end].
Definition borrowed (prog : list op) : list bool := fold_left borrowed_step prog [].
(** The variable whose object an operation changes in place. *)
Definition target (o : op) : option nat :=
  match o with AddSelector x _ | RemoveSelector x _ | RemoveIndex x _ | SetBit x _ _ => Some x | _ => None end.
(** The client never changes an object that it obtained from a SubgroupList. *)
Definition careful (prog : list op) : Prop :=
  forall before o after x, prog = before ++ o :: after -> target o = Some x -> nth x (borrowed before) false = false.
(** The variable whose operation created the Pattern that variable k refers to (directly or as a description). *)
Definition root_step (rt : list nat) (o : op) : list nat :=
  rt ++ [match o with NewSubgroup x _ | Description x => nth x rt 0 | _ => length rt end].
Definition roots (prog : list op) : list nat := fold_left root_step prog [].
Definition root (prog : list op) (x : nat) : nat := nth x (roots prog) 0.
(** The calls made on the list of variable x, with the values passed at the time of the call. *)
Definition call (st : state) (o : op) (x : nat) : list sl_op :=
  match o with
  | AddSubgroup y g p n => if y =? x then match subgroup_of st g, bits_of st p, bits_of st n with Some s, Some bp, Some bn => [SLAdd s bp bn] | _, _, _ => [] end else []
  | DeleteLast y => if y =? x then [SLDelete] else []
  | _ => []
  end.
Fixpoint calls (st : state) (prog : list op) (x : nat) : list sl_op :=
  match prog with [] => [] | o :: prog' => call st o x ++ calls (step st o) prog' x end.

(** * Heaps *)
Inductive shp := SPat | SBits | SSub (d : loc) (t : selector) | SLst.
Definition shape_of (o : obj) : shp := match o with OPattern _ => SPat | OSubgroup d t => SSub d t | OBits _ => SBits | OList _ => SLst end.
Definition shape_at (h : heap) (l : loc) : option shp := option_map shape_of (nth_error h l).
Lemma nth_set : forall {A} (h : list A) l x k, nth_error (set_at h l x) k = if k =? l then (if l <? length h then Some x else None) else nth_error h k.
Proof.
  induction h as [|y h IH]; intros l x k; cbn [set_at].
  - destruct (k =? l); destruct k; reflexivity.
  - destruct l as [|l]; destruct k as [|k]; auto. cbn [nth_error Nat.eqb length]. rewrite IH. destruct (k =? l) eqn:E; auto.
Qed.
Lemma set_length : forall {A} (h : list A) l x, length (set_at h l x) = length h.
Proof. induction h as [|y h IH]; intros [|l] x; cbn; auto. Qed.
Lemma nth_set_same : forall {A} (h : list A) l x y, nth_error h l = Some y -> nth_error (set_at h l x) l = Some x.
Proof. intros A h l x y E. rewrite nth_set, Nat.eqb_refl. assert (l < length h) by (apply nth_error_Some; congruence). destruct (l <? length h) eqn:L; auto. apply Nat.ltb_ge in L. lia. Qed.
Lemma nth_set_other : forall {A} (h : list A) l x k, k <> l -> nth_error (set_at h l x) k = nth_error h k.
Proof. intros A h l x k N. rewrite nth_set. destruct (k =? l) eqn:E; auto. apply Nat.eqb_eq in E. congruence. Qed.
Lemma shape_lt : forall h l s, shape_at h l = Some s -> l < length h.
Proof. intros h l s E. apply nth_error_Some. unfold shape_at in E. destruct (nth_error h l); [discriminate|discriminate E]. Qed.
Lemma shape_none : forall h l, shape_at h l = None -> length h <= l.
Proof. intros h l E. apply nth_error_None. unfold shape_at in E. destruct (nth_error h l); [discriminate E|auto]. Qed.
Lemma shape_set : forall h l o, shape_at h l = Some (shape_of o) -> forall k, shape_at (set_at h l o) k = shape_at h k.
Proof.
  intros h l o E k. unfold shape_at. rewrite nth_set. destruct (k =? l) eqn:Ek; auto. apply Nat.eqb_eq in Ek. subst k.
  pose proof (shape_lt _ _ _ E) as L. apply Nat.ltb_lt in L. rewrite L. exact (eq_sym E).
Qed.
Definition ext (h h' : heap) : Prop := forall l s, shape_at h l = Some s -> shape_at h' l = Some s.
Lemma ext_refl : forall h, ext h h. Proof. intros h l s E; exact E. Qed.
Lemma ext_trans : forall a b c, ext a b -> ext b c -> ext a c. Proof. intros a b c H G l s E. auto. Qed.
Lemma nth_app_old : forall {A} (h r : list A) l x, nth_error h l = Some x -> nth_error (h ++ r) l = Some x.
Proof. intros A h r l x E. rewrite nth_error_app1; auto. apply nth_error_Some. congruence. Qed.
Lemma nth_app_new : forall {A} (h : list A) x, nth_error (h ++ [x]) (length h) = Some x.
Proof. intros A h x. rewrite nth_error_app2, Nat.sub_diag by lia. reflexivity. Qed.
Lemma ext_alloc : forall h o, ext h (h ++ [o]).
Proof. intros h o l s E. unfold shape_at in *. destruct (nth_error h l) as [x|] eqn:N; [|discriminate]. rewrite (nth_app_old _ _ _ _ N). exact E. Qed.
Lemma shape_new : forall h o, shape_at (h ++ [o]) (length h) = Some (shape_of o).
Proof. intros h o. unfold shape_at. rewrite nth_app_new. reflexivity. Qed.
Lemma ext_set : forall h l o, shape_at h l = Some (shape_of o) -> ext h (set_at h l o).
Proof. intros h l o E k s H. rewrite shape_set; auto. Qed.
Lemma pat_shape : forall h l p, pat_at h l = Some p -> shape_at h l = Some SPat.
Proof. intros h l p E. unfold pat_at, shape_at in *. destruct (nth_error h l) as [[]|]; try discriminate; reflexivity. Qed.
Lemma bits_shape : forall h l p, bits_at h l = Some p -> shape_at h l = Some SBits.
Proof. intros h l p E. unfold bits_at, shape_at in *. destruct (nth_error h l) as [[]|]; try discriminate; reflexivity. Qed.
Lemma sub_shape : forall h l d t, sub_at h l = Some (d, t) <-> shape_at h l = Some (SSub d t).
Proof. intros h l d t. unfold sub_at, shape_at. destruct (nth_error h l) as [[]|]; split; intros E; try discriminate; cbn in *; injection E as <- <-; reflexivity. Qed.
Lemma list_shape : forall h l x, list_at h l = Some x -> shape_at h l = Some SLst.
Proof. intros h l p E. unfold list_at, shape_at in *. destruct (nth_error h l) as [[]|]; try discriminate; reflexivity. Qed.
Lemma shape_pat : forall h l, shape_at h l = Some SPat -> exists p, pat_at h l = Some p /\ nth_error h l = Some (OPattern p).
Proof. intros h l E. unfold pat_at, shape_at in *. destruct (nth_error h l) as [[]|]; try discriminate. eauto. Qed.
Lemma shape_bits : forall h l, shape_at h l = Some SBits -> exists p, bits_at h l = Some p /\ nth_error h l = Some (OBits p).
Proof. intros h l E. unfold bits_at, shape_at in *. destruct (nth_error h l) as [[]|]; try discriminate. eauto. Qed.
Lemma shape_list : forall h l, shape_at h l = Some SLst -> exists p, list_at h l = Some p.
Proof. intros h l E. unfold list_at, shape_at in *. destruct (nth_error h l) as [[]|]; try discriminate. eauto. Qed.

(** * Ownership *)
Inductive role := RPos | RNeg | RStored.
Inductive tag := Client | Part (L : loc) (r : role).
Definition bits_part (h : heap) (tags : list tag) (L : loc) (r : role) (l : loc) : Prop := shape_at h l = Some SBits /\ nth_error tags l = Some (Part L r).
Definition sub_part (h : heap) (tags : list tag) (L : loc) (l : loc) : Prop :=
  exists d t, shape_at h l = Some (SSub d t) /\ shape_at h d = Some SPat /\ nth_error tags l = Some (Part L RStored) /\ nth_error tags d = Some (Part L RStored).
Definition rep_ok (h : heap) (tags : list tag) (L : loc) (x : hlist) : Prop :=
  nth_error tags L = Some Client /\ bits_part h tags L RPos (h_dpos x) /\ bits_part h tags L RNeg (h_dneg x) /\
  Forall (bits_part h tags L RStored) (h_pos x) /\ Forall (bits_part h tags L RStored) (h_neg x) /\
  Forall (bits_part h tags L RStored) (h_opos x) /\ Forall (bits_part h tags L RStored) (h_oneg x) /\
  Forall (sub_part h tags L) (h_subs x) /\ length (h_pos x) = length (h_subs x) /\ length (h_neg x) = length (h_subs x).
Definition hinv (h : heap) (tags : list tag) : Prop :=
  length tags = length h /\ (forall l d t, shape_at h l = Some (SSub d t) -> shape_at h d = Some SPat) /\
  (forall L x, list_at h L = Some x -> rep_ok h tags L x).
Definition grows (tags tags' : list tag) : Prop := forall l t, nth_error tags l = Some t -> nth_error tags' l = Some t.
Lemma rep_mono : forall h tags h' tags' L x, ext h h' -> grows tags tags' -> rep_ok h tags L x -> rep_ok h' tags' L x.
Proof.
  intros h tags h' tags' L x E G (A & (B1 & B2) & (C1 & C2) & F1 & F2 & F3 & F4 & F5 & L1 & L2).
  assert (P : forall l, bits_part h tags L RStored l -> bits_part h' tags' L RStored l) by (intros l [P1 P2]; split; auto).
  assert (Q : forall l, sub_part h tags L l -> sub_part h' tags' L l) by (intros l (d & t & P1 & P2 & P3 & P4); exists d, t; auto).
  repeat (split; [first [solve [auto] | split; auto | eapply Forall_impl; [exact P|assumption] | eapply Forall_impl; [exact Q|assumption]]|]). exact L2.
Qed.
Lemma hinv_alloc : forall h tags o T, hinv h tags -> match o with OSubgroup d _ => shape_at h d = Some SPat | OList _ => False | _ => True end -> hinv (h ++ [o]) (tags ++ [T]).
Proof.
  intros h tags o T (A & B & C) Ho. split; [rewrite !app_length, A; reflexivity|]. split.
  - intros l d t E. apply (ext_alloc h o). destruct (shape_at h l) as [s|] eqn:S0.
    + pose proof (ext_alloc h o _ _ S0) as E'. rewrite E in E'. injection E' as <-. eapply B; eauto.
    + apply shape_none in S0. pose proof (shape_lt _ _ _ E) as L. rewrite app_length in L. cbn [length] in L. assert (l = length h) by lia. subst l.
      rewrite shape_new in E. destruct o; cbn [shape_of] in E; try discriminate. injection E as -> ->. exact Ho.
  - intros L x E. apply (rep_mono h tags); [apply ext_alloc|intros l t; apply nth_app_old|]. apply C. unfold list_at in *.
    destruct (nth_error h L) as [y|] eqn:N; [rewrite (nth_app_old _ _ _ _ N) in E; exact E|]. apply nth_error_None in N.
    destruct (Nat.eq_dec L (length h)) as [->|Ne]; [rewrite nth_app_new in E; destruct o; try discriminate; destruct Ho|].
    assert (X : nth_error (h ++ [o]) L = None) by (apply nth_error_None; rewrite app_length; cbn; lia). rewrite X in E. discriminate.
Qed.
Lemma hinv_set : forall h tags l o, hinv h tags -> shape_at h l = Some (shape_of o) -> shape_of o <> SLst -> hinv (set_at h l o) tags.
Proof.
  intros h tags l o (A & B & C) E N. split; [rewrite set_length; exact A|]. split.
  - intros k d t. rewrite !shape_set by exact E. apply B.
  - intros L x Ex. apply (rep_mono h tags); [apply ext_set; exact E|intros k t; auto|]. apply C. unfold list_at in *. rewrite nth_set in Ex. destruct (L =? l); [|exact Ex].
    destruct (l <? length h); [destruct o; try discriminate; cbn in N; congruence|discriminate].
Qed.
Lemma hinv_list : forall h tags L x, hinv h tags -> shape_at h L = Some SLst -> rep_ok h tags L x -> hinv (set_at h L (OList x)) tags.
Proof.
  intros h tags L x (A & B & C) E R. split; [rewrite set_length; exact A|]. split.
  - intros k d t. rewrite !shape_set by exact E. apply B.
  - intros K y Ey. apply (rep_mono h tags); [apply ext_set; exact E|intros k t; auto|]. unfold list_at in *. rewrite nth_set in Ey. destruct (K =? L) eqn:EK; [|apply C; exact Ey].
    apply Nat.eqb_eq in EK. subst K. destruct (L <? length h); [|discriminate]. injection Ey as <-. exact R.
Qed.

(** * Values *)
Definition view (h : heap) (l : hlist) : option sglist :=
  let bits := all_some (bits_at h) in
  match bits_at h (h_dpos l), bits_at h (h_dneg l), all_some (subgroup_value h) (h_subs l), bits (h_pos l), bits (h_neg l), bits (h_opos l), bits (h_oneg l) with
  | Some dp, Some dn, Some gs, Some p, Some n, Some op, Some on => Some (SL dp dn (h_dist l) gs p n op on)
  | _, _, _, _, _, _, _ => None
  end.
Lemma all_some_ext : forall {A B} (f g : A -> option B) l, (forall x, In x l -> f x = g x) -> all_some f l = all_some g l.
Proof. induction l as [|x l IH]; intros H; cbn [all_some]; auto. rewrite (H x), IH; auto. - intros y Iy. apply H. right; auto. - left; auto. Qed.
Lemma all_some_app : forall {A B} (f : A -> option B) a b, all_some f (a ++ b) = match all_some f a, all_some f b with Some x, Some y => Some (x ++ y) | _, _ => None end.
Proof.
  induction a as [|x a IH]; intros b; cbn [all_some app]; [destruct (all_some f b); auto|]. rewrite IH. destruct (f x); auto. destruct (all_some f a); auto. destruct (all_some f b); auto.
Qed.
Lemma all_some_len : forall {A B} (f : A -> option B) l r, all_some f l = Some r -> length r = length l.
Proof. induction l as [|x l IH]; intros r E; cbn [all_some] in E; [injection E as <-; auto|]. destruct (f x); [|discriminate]. destruct (all_some f l); [|discriminate]. injection E as <-. cbn. f_equal. auto. Qed.
Lemma all_some_removelast : forall {A B} (f : A -> option B) l r, all_some f l = Some r -> all_some f (removelast l) = Some (removelast r).
Proof.
  intros A B f l r E. destruct l as [|x0 l0]; [injection E as <-; reflexivity|]. destruct (exists_last (l := x0 :: l0)) as (l' & x & El); [discriminate|]. rewrite El in *.
  rewrite all_some_app in E. destruct (all_some f l') as [r'|] eqn:E1; [|discriminate]. cbn [all_some] in E. destruct (f x) as [y|]; [|discriminate]. injection E as <-. rewrite !removelast_last. exact E1.
Qed.
Lemma all_some_last : forall {A B} (f : A -> option B) l r x, all_some f l = Some r -> last_elem l = Ok x -> exists y, f x = Some y /\ last_elem r = Ok y.
Proof.
  intros A B f l r x E L. destruct l as [|x0 l0]; [discriminate|]. destruct (exists_last (l := x0 :: l0)) as (l' & z & El); [discriminate|]. rewrite El in *. unfold last_elem in L. rewrite rev_app_distr in L. cbn in L. injection L as ->.
  rewrite all_some_app in E. destruct (all_some f l') as [r'|] eqn:E1; [|discriminate]. cbn [all_some] in E. destruct (f x) as [y|]; [|discriminate]. injection E as <-. exists y. split; auto. unfold last_elem. rewrite rev_app_distr. reflexivity.
Qed.
Lemma view_frame : forall h h' tags L x, rep_ok h tags L x -> (forall l r, nth_error tags l = Some (Part L r) -> nth_error h' l = nth_error h l) -> view h' x = view h x.
Proof.
  intros h h' tags L x (A & (B1 & B2) & (C1 & C2) & F1 & F2 & F3 & F4 & F5 & _) Hf.
  assert (Hb : forall l r, bits_part h tags L r l -> bits_at h' l = bits_at h l) by (intros l r [_ T]; unfold bits_at; rewrite (Hf _ _ T); reflexivity).
  assert (Hl : forall l, Forall (bits_part h tags L RStored) l -> all_some (bits_at h') l = all_some (bits_at h) l).
  { intros l F. apply all_some_ext. intros y Iy. rewrite Forall_forall in F. eapply Hb, F, Iy. }
  assert (Hs : all_some (subgroup_value h') (h_subs x) = all_some (subgroup_value h) (h_subs x)).
  { apply all_some_ext. intros y Iy. rewrite Forall_forall in F5. destruct (F5 y Iy) as (d & t & S1 & S2 & T1 & T2). apply sub_shape in S1. unfold subgroup_value.
    assert (E : sub_at h' y = sub_at h y) by (unfold sub_at; rewrite (Hf _ _ T1); reflexivity). rewrite E, S1. unfold pat_at. rewrite (Hf _ _ T2). reflexivity. }
  unfold view. rewrite (Hb _ RPos (conj B1 B2)), (Hb _ RNeg (conj C1 C2)), Hs, !Hl; auto.
Qed.
Lemma bits_total : forall h tags L r l, bits_part h tags L r l -> exists b, bits_at h l = Some b.
Proof. intros h tags L r l [S1 _]. destruct (shape_bits _ _ S1) as (b & E & _). eauto. Qed.
Lemma all_bits_total : forall h tags L r l, Forall (bits_part h tags L r) l -> exists b, all_some (bits_at h) l = Some b.
Proof. intros h tags L r l F. induction F as [|x l P F (b & E)]; [exists []; auto|]. destruct (bits_total _ _ _ _ _ P) as (c & Ec). cbn [all_some]. rewrite Ec, E. eauto. Qed.
Lemma view_total : forall h tags L x, rep_ok h tags L x -> exists v, view h x = Some v.
Proof.
  intros h tags L x (A & B & C & F1 & F2 & F3 & F4 & F5 & _). unfold view. destruct (bits_total _ _ _ _ _ B) as (b1 & ->). destruct (bits_total _ _ _ _ _ C) as (b2 & ->).
  destruct (all_bits_total _ _ _ _ _ F1) as (c1 & ->). destruct (all_bits_total _ _ _ _ _ F2) as (c2 & ->). destruct (all_bits_total _ _ _ _ _ F3) as (c3 & ->). destruct (all_bits_total _ _ _ _ _ F4) as (c4 & ->).
  assert (S1 : exists gs, all_some (subgroup_value h) (h_subs x) = Some gs).
  { clear -F5. induction F5 as [|y l (d & t & S1 & S2 & _) F (gs & E)]; [exists []; auto|]. cbn [all_some]. apply sub_shape in S1. destruct (shape_pat _ _ S2) as (p & Ep & _). unfold subgroup_value at 1. rewrite S1, Ep, E. eauto. }
  destruct S1 as (gs & ->). eauto.
Qed.

(** * The methods of a SubgroupList *)
Record moved (h : heap) (tags : list tag) (L : loc) (h' : heap) (tags' : list tag) : Prop := {
  m_inv : hinv h' tags'; m_ext : ext h h'; m_grows : grows tags tags';
  m_frame : forall l t, nth_error tags l = Some t -> l <> L -> t <> Part L RPos -> t <> Part L RNeg -> nth_error h' l = nth_error h l }.
Lemma grows_app : forall tags r, grows tags (tags ++ r). Proof. intros tags r l t. apply nth_app_old. Qed.
Lemma nth_old : forall {A} (h r : list A) l, l < length h -> nth_error (h ++ r) l = nth_error h l.
Proof. intros A h r l H. apply nth_error_app1. exact H. Qed.
Lemma tag_lt : forall (tags : list tag) l t, nth_error tags l = Some t -> l < length tags.
Proof. intros tags l t E. apply nth_error_Some. congruence. Qed.
Lemma add_ok : forall h tags L x v g s bp bn, hinv h tags -> list_at h L = Some x -> view h x = Some v -> subgroup_value h g = Some s ->
  match add_subgroup h L x g bp bn with
  | Err e => sl_add v s bp bn = Err e
  | Ok h' => exists tags' x' v', sl_add v s bp bn = Ok v' /\ list_at h' L = Some x' /\ view h' x' = Some v' /\ moved h tags L h' tags' /\ h_dpos x' = h_dpos x /\ h_dneg x' = h_dneg x
  end.
Proof.
  intros h tags L x v g s bp bn HI HLx Hv Hg. pose proof HI as (IL & IS & IR). pose proof (IR L x HLx) as R. pose proof R as (R1 & (R2 & R2') & (R3 & R3') & F1 & F2 & F3 & F4 & F5 & L1 & L2).
  unfold view in Hv. destruct (bits_at h (h_dpos x)) as [dp|] eqn:Edp; [|discriminate]. destruct (bits_at h (h_dneg x)) as [dn|] eqn:Edn; [|discriminate].
  destruct (all_some (subgroup_value h) (h_subs x)) as [gs|] eqn:Egs; [|discriminate]. destruct (all_some (bits_at h) (h_pos x)) as [ps|] eqn:Eps; [|discriminate].
  destruct (all_some (bits_at h) (h_neg x)) as [ns|] eqn:Ens; [|discriminate]. destruct (all_some (bits_at h) (h_opos x)) as [ops|] eqn:Eops; [|discriminate].
  destruct (all_some (bits_at h) (h_oneg x)) as [ons|] eqn:Eons; [|discriminate]. injection Hv as <-.
  unfold add_subgroup, sl_add, sl_number_of_instances. cbn [sl_distribution]. destruct (negb (snd (h_dist x) =? length bp)); [reflexivity|]. destruct (negb (snd (h_dist x) =? length bn)); [reflexivity|].
  cbn [alloc sl_default_pos sl_default_neg sl_subgroups sl_pos sl_neg sl_orig_pos sl_orig_neg].
  pose proof (shape_lt _ _ _ R2) as Dp. pose proof (shape_lt _ _ _ R3) as Dn. pose proof (list_shape _ _ _ HLx) as SL0. pose proof (shape_lt _ _ _ SL0) as DL.
  assert (B : forall r l, l < length h -> bits_at (h ++ r) l = bits_at h l) by (intros r l H; unfold bits_at; rewrite nth_old; auto).
  rewrite <- !app_assoc. cbn [app]. unfold follow at 1. rewrite B, Edp by exact Dp. cbn [bind]. unfold follow at 1. rewrite B, Edn by exact Dn. cbn [bind].
  rewrite !app_length. cbn [length]. set (n := length h) in *.
  set (cp := bits_and bp dp). set (cn := bits_and bn dn). set (h4 := (h ++ [OBits bp; OBits bn; OBits cp]) ++ [OBits cn]).
  assert (E4 : h4 = h ++ [OBits bp; OBits bn; OBits cp; OBits cn]) by (unfold h4; rewrite <- app_assoc; reflexivity).
  replace (((h ++ [OBits bp; OBits bn]) ++ [OBits cp]) ++ [OBits cn]) with h4 by (rewrite E4, <- !app_assoc; reflexivity). replace (n + 2 + 1) with (n + 3) by lia.
  set (h5 := set_at h4 (h_dpos x) (OBits (bits_and dp (bits_not cp)))). set (h6 := set_at h5 (h_dneg x) (OBits (bits_and dn (bits_not cn)))).
  assert (Npn : h_dneg x <> h_dpos x) by (intros E; rewrite E in R3'; congruence).
  assert (NLp : L <> h_dpos x) by (intros E; rewrite <- E in R2; congruence). assert (NLn : L <> h_dneg x) by (intros E; rewrite <- E in R3; congruence).
  assert (L4 : length h4 = n + 4) by (rewrite E4, app_length; reflexivity).
  assert (L6 : length h6 = n + 4) by (unfold h6, h5; rewrite !set_length; exact L4).
  assert (O6 : forall l, l <> h_dpos x -> l <> h_dneg x -> nth_error h6 l = nth_error h4 l) by (intros l N1 N2; unfold h6, h5; rewrite !nth_set_other; auto).
  assert (O4 : forall l, l < n -> nth_error h4 l = nth_error h l) by (intros l Hl; rewrite E4; apply nth_old; exact Hl).
  assert (P6 : nth_error h6 (h_dpos x) = Some (OBits (bits_and dp (bits_not cp)))).
  { unfold h6. rewrite nth_set_other by congruence. unfold h5. destruct (shape_bits _ _ R2) as (b & _ & Eb). eapply nth_set_same. rewrite O4 by exact Dp. exact Eb. }
  assert (Q6 : nth_error h6 (h_dneg x) = Some (OBits (bits_and dn (bits_not cn)))).
  { unfold h6. destruct (shape_bits _ _ R3) as (b & _ & Eb). eapply nth_set_same. unfold h5. rewrite nth_set_other by congruence. rewrite O4 by exact Dn. exact Eb. }
  unfold subgroup_value in Hg. destruct (sub_at h g) as [[d t]|] eqn:Eg; [|discriminate]. destruct (pat_at h d) as [p|] eqn:Ed; [|discriminate]. injection Hg as <-.
  pose proof (proj1 (sub_shape _ _ _ _) Eg) as Sg. pose proof (shape_lt _ _ _ Sg) as Dg. pose proof (pat_shape _ _ _ Ed) as Sd. pose proof (shape_lt _ _ _ Sd) as Dd.
  assert (G6 : sub_at h6 g = Some (d, t)) by (unfold sub_at; rewrite O6, O4; [exact Eg|exact Dg|intros E; rewrite <- E in R2; congruence|intros E; rewrite <- E in R3; congruence]).
  assert (P6d : pat_at h6 d = Some p) by (unfold pat_at; rewrite O6, O4; [exact Ed|exact Dd|intros E; rewrite <- E in R2; congruence|intros E; rewrite <- E in R3; congruence]).
  unfold copy_subgroup, follow. rewrite G6. cbn [bind fst]. rewrite P6d. cbn [bind alloc snd]. rewrite app_length, L6. cbn [length].
  set (h8 := (h6 ++ [OPattern (pattern_copy p)]) ++ [OSubgroup (n + 4) t]). set (x' := HL _ _ _ _ _ _ _ _).
  assert (E8 : h8 = h6 ++ [OPattern p; OSubgroup (n + 4) t]) by (unfold h8; rewrite <- app_assoc; reflexivity).
  set (S0 := Part L RStored). set (tags' := tags ++ [S0; S0; S0; S0; S0; S0]).
  assert (H4 : hinv h4 (tags ++ [S0; S0; S0; S0])).
  { unfold h4. change (h ++ [OBits bp; OBits bn; OBits cp]) with (h ++ ([OBits bp] ++ [OBits bn] ++ [OBits cp])). change [S0; S0; S0; S0] with ([S0] ++ [S0] ++ [S0] ++ [S0]). rewrite !app_assoc. repeat (apply hinv_alloc; [|exact I]). exact HI. }
  assert (X4 : ext h h4) by (rewrite E4; intros l sh Es; unfold shape_at in *; rewrite nth_old; [exact Es|apply (shape_lt _ _ sh); exact Es]).
  assert (S4p : shape_at h4 (h_dpos x) = Some SBits) by (apply X4; exact R2). assert (S4n : shape_at h4 (h_dneg x) = Some SBits) by (apply X4; exact R3).
  assert (H5 : hinv h5 (tags ++ [S0; S0; S0; S0])) by (apply hinv_set; [exact H4|exact S4p|discriminate]).
  assert (X5 : ext h4 h5) by (apply ext_set; exact S4p).
  assert (H6 : hinv h6 (tags ++ [S0; S0; S0; S0])) by (apply hinv_set; [exact H5|apply X5; exact S4n|discriminate]).
  assert (X6 : ext h5 h6) by (apply ext_set, X5; exact S4n).
  assert (H8 : hinv h8 tags').
  { unfold tags'. change [S0; S0; S0; S0; S0; S0] with ([S0; S0; S0; S0] ++ [S0] ++ [S0]). rewrite !app_assoc. unfold h8. apply hinv_alloc; [apply hinv_alloc; [exact H6|exact I]|]. rewrite <- L6. apply shape_new. }
  assert (X8 : ext h6 h8) by (unfold h8; eapply ext_trans; apply ext_alloc). assert (X : ext h h8) by (eapply ext_trans; [exact X4|]; eapply ext_trans; [exact X5|]; eapply ext_trans; [exact X6|exact X8]).
  assert (N8 : forall k o, k < 4 -> nth_error [OBits bp; OBits bn; OBits cp; OBits cn] k = Some o -> nth_error h8 (n + k) = Some o).
  { intros k o Hk Eo. rewrite E8, nth_old by lia. rewrite O6 by lia. rewrite E4, nth_error_app2 by lia. replace (n + k - length h) with k by (unfold n; lia). exact Eo. }
  assert (P8 : nth_error h8 (n + 4) = Some (OPattern p)) by (rewrite E8, <- L6, nth_error_app2, Nat.sub_diag by lia; reflexivity).
  assert (Q8 : nth_error h8 (n + 5) = Some (OSubgroup (n + 4) t)) by (rewrite E8, nth_error_app2 by lia; replace (n + 5 - length h6) with 1 by lia; reflexivity).
  assert (T' : forall k, k < 6 -> nth_error tags' (n + k) = Some S0) by (intros k Hk; unfold tags'; rewrite nth_error_app2 by lia; replace (n + k - length tags) with k by lia; do 6 (destruct k; [reflexivity|]); lia).
  assert (G : grows tags tags') by apply grows_app.
  assert (Fresh : forall k b, k < 4 -> nth_error h8 (n + k) = Some (OBits b) -> bits_part h8 tags' L RStored (n + k)).
  { intros k b Hk E. split; [unfold shape_at; rewrite E; reflexivity|apply T'; lia]. }
  pose proof (rep_mono _ _ _ _ _ _ X G R) as (R1' & R4 & R5 & G1 & G2 & G3 & G4 & G5 & _).
  assert (RX : rep_ok h8 tags' L x').
  { unfold x'. split; [exact R1'|]. cbn [h_dpos h_dneg h_pos h_neg h_opos h_oneg h_subs]. split; [exact R4|]. split; [exact R5|]. rewrite !app_length, L1, L2. cbn [length].
    split; [apply Forall_app; split; auto; constructor; auto; apply (Fresh 2 cp); [lia|apply N8; [lia|reflexivity]]|].
    split; [apply Forall_app; split; auto; constructor; auto; apply (Fresh 3 cn); [lia|apply N8; [lia|reflexivity]]|].
    split; [apply Forall_app; split; auto; constructor; auto; replace n with (n + 0) by lia; apply (Fresh 0 bp); [lia|apply N8; [lia|reflexivity]]|].
    split; [apply Forall_app; split; auto; constructor; auto; apply (Fresh 1 bn); [lia|apply N8; [lia|reflexivity]]|].
    split; [|split; reflexivity]. apply Forall_app. split; auto. constructor; auto. exists (n + 4), t. replace (n + 4 + 1) with (n + 5) by lia.
    split; [unfold shape_at; rewrite Q8; reflexivity|]. split; [unfold shape_at; rewrite P8; reflexivity|]. split; apply T'; lia. }
  assert (SL8 : shape_at h8 L = Some SLst) by (apply X; exact SL0). destruct (shape_list _ _ SL8) as (xl & Exl). assert (N8L : exists o, nth_error h8 L = Some o) by (unfold list_at in Exl; destruct (nth_error h8 L); [eauto|discriminate]). destruct N8L as (oL & N8L).
  exists tags', x'. eexists. split; [reflexivity|]. split; [unfold list_at; rewrite (nth_set_same _ _ _ _ N8L); reflexivity|]. split; [|split; [|split; reflexivity]].
  - assert (V : view (set_at h8 L (OList x')) x' = view h8 x').
    { apply (view_frame _ _ _ _ _ RX). intros l r E. apply nth_set_other. intros ->. rewrite R1' in E. discriminate. }
    rewrite V. unfold view, x'. cbn [h_dpos h_dneg h_dist h_pos h_neg h_opos h_oneg h_subs].
    assert (A8 : forall l, l < n + 4 -> nth_error h8 l = nth_error h6 l) by (intros l Hl; rewrite E8; apply nth_old; lia).
    assert (Bp : bits_at h8 (h_dpos x) = Some (bits_and dp (bits_not cp))) by (unfold bits_at; rewrite A8, P6 by lia; reflexivity).
    assert (Bn : bits_at h8 (h_dneg x) = Some (bits_and dn (bits_not cn))) by (unfold bits_at; rewrite A8, Q6 by lia; reflexivity).
    assert (Old : forall l, nth_error tags l = Some (Part L RStored) -> nth_error h8 l = nth_error h l).
    { intros l Tl. pose proof (tag_lt _ _ _ Tl) as Hl. rewrite A8 by lia. rewrite O6, O4; [reflexivity|lia| |]; intros ->; congruence. }
    assert (Ob : forall l r, Forall (bits_part h tags L RStored) l -> all_some (bits_at h) l = Some r -> all_some (bits_at h8) l = Some r).
    { intros l r F E. rewrite <- E. apply all_some_ext. intros y Iy. rewrite Forall_forall in F. destruct (F y Iy) as [_ Ty]. unfold bits_at. rewrite (Old _ Ty). reflexivity. }
    assert (Os : all_some (subgroup_value h8) (h_subs x) = Some gs).
    { rewrite <- Egs. apply all_some_ext. intros y Iy. rewrite Forall_forall in F5. destruct (F5 y Iy) as (d' & t' & S1 & S2 & T1 & T2). apply sub_shape in S1. unfold subgroup_value.
      assert (E : sub_at h8 y = sub_at h y) by (unfold sub_at; rewrite (Old _ T1); reflexivity). rewrite E, S1. unfold pat_at. rewrite (Old _ T2). reflexivity. }
    assert (Nb : forall k b, k < 4 -> nth_error [OBits bp; OBits bn; OBits cp; OBits cn] k = Some (OBits b) -> bits_at h8 (n + k) = Some b) by (intros k b Hk E; unfold bits_at; rewrite (N8 _ _ Hk E); reflexivity).
    assert (Ns : subgroup_value h8 (n + 4 + 1) = Some (SG p t)) by (replace (n + 4 + 1) with (n + 5) by lia; unfold subgroup_value, sub_at; rewrite Q8; unfold pat_at; rewrite P8; reflexivity).
    rewrite Bp, Bn, !all_some_app, Os, (Ob _ _ F1 Eps), (Ob _ _ F2 Ens), (Ob _ _ F3 Eops), (Ob _ _ F4 Eons). cbn [all_some]. rewrite Ns. assert (N0 : bits_at h8 n = Some bp) by (rewrite <- (Nat.add_0_r n); apply (Nb 0); [lia|reflexivity]). rewrite N0.
    rewrite (Nb 2 cp), (Nb 3 cn), (Nb 1 bn); [reflexivity|lia|reflexivity|lia|reflexivity|lia|reflexivity].
  - constructor.
    + apply hinv_list; auto.
    + eapply ext_trans; [exact X|]. apply ext_set. exact SL8.
    + exact G.
    + intros l tg Tl Nl Np Nq. pose proof (tag_lt _ _ _ Tl) as Hl. rewrite nth_set_other by exact Nl. rewrite E8, nth_old by lia. rewrite O6, O4; [reflexivity|lia| |]; intros ->; [rewrite R2' in Tl|rewrite R3' in Tl]; injection Tl as <-; congruence.
Qed.
Lemma Forall_removelast : forall {A} (P : A -> Prop) l, Forall P l -> Forall P (removelast l).
Proof. intros A P l F. induction F as [|x l Px F IH]; cbn [removelast]; auto. destruct l; auto. Qed.
Lemma removelast_length : forall {A} (l : list A), length (removelast l) = length l - 1.
Proof. intros A l. destruct l as [|x0 l0]; auto. destruct (exists_last (l := x0 :: l0)) as (l' & z & ->); [discriminate|]. rewrite removelast_last, app_length. cbn. lia. Qed.
Lemma last_elem_some : forall {A} (l : list A), 0 < length l -> exists x, last_elem l = Ok x /\ In x l.
Proof. intros A l H. destruct l as [|x0 l0]; [cbn in H; lia|]. destruct (exists_last (l := x0 :: l0)) as (l' & z & ->); [discriminate|]. exists z. unfold last_elem. rewrite rev_app_distr. split; [reflexivity|]. apply in_app_iff. right; left; auto. Qed.
Lemma delete_ok : forall h tags L x v, hinv h tags -> list_at h L = Some x -> view h x = Some v ->
  exists h' x' v', delete_last h L x = Ok h' /\ sl_delete_last v = Ok v' /\ list_at h' L = Some x' /\ view h' x' = Some v' /\ moved h tags L h' tags /\ h_dpos x' = h_dpos x /\ h_dneg x' = h_dneg x.
Proof.
  intros h tags L x v HI HLx Hv. pose proof HI as (IL & IS & IR). pose proof (IR L x HLx) as R. pose proof R as (R1 & (R2 & R2') & (R3 & R3') & F1 & F2 & F3 & F4 & F5 & L1 & L2). pose proof Hv as Hv0.
  unfold view in Hv. destruct (bits_at h (h_dpos x)) as [dp|] eqn:Edp; [|discriminate]. destruct (bits_at h (h_dneg x)) as [dn|] eqn:Edn; [|discriminate].
  destruct (all_some (subgroup_value h) (h_subs x)) as [gs|] eqn:Egs; [|discriminate]. destruct (all_some (bits_at h) (h_pos x)) as [ps|] eqn:Eps; [|discriminate].
  destruct (all_some (bits_at h) (h_neg x)) as [ns|] eqn:Ens; [|discriminate]. destruct (all_some (bits_at h) (h_opos x)) as [ops|] eqn:Eops; [|discriminate].
  destruct (all_some (bits_at h) (h_oneg x)) as [ons|] eqn:Eons; [|discriminate]. injection Hv as <-.
  unfold delete_last, sl_delete_last. cbn [sl_subgroups]. rewrite (all_some_len _ _ _ Egs). destruct (0 <? length (h_subs x)) eqn:E0.
  2:{ exists h, x. eexists. split; [reflexivity|]. split; [reflexivity|]. split; [exact HLx|]. split; [exact Hv0|]. split; [|split; reflexivity]. constructor; [exact HI|apply ext_refl|intros l t E; exact E|auto]. }
  apply Nat.ltb_lt in E0. destruct (last_elem_some (h_pos x)) as (lp & Elp & Ilp); [lia|]. destruct (last_elem_some (h_neg x)) as (ln & Eln & Iln); [lia|].
  rewrite Elp, Eln. cbn [bind sl_pos sl_neg sl_default_pos sl_default_neg sl_distribution sl_orig_pos sl_orig_neg].
  destruct (all_some_last _ _ _ _ Eps Elp) as (p & Ep & Lp). destruct (all_some_last _ _ _ _ Ens Eln) as (q & Eq & Lq). rewrite Lp, Lq. cbn [bind]. unfold follow. rewrite Ep, Eq, Edp. cbn [bind].
  assert (Npn : h_dneg x <> h_dpos x) by (intros E; rewrite E in R3'; congruence).
  set (h5 := set_at h (h_dpos x) (OBits (bits_or dp p))).
  assert (B5 : bits_at h5 (h_dneg x) = Some dn) by (unfold bits_at, h5; rewrite nth_set_other by exact Npn; exact Edn). rewrite B5. cbn [bind].
  set (h6 := set_at h5 (h_dneg x) (OBits (bits_or dn q))). set (x' := HL _ _ _ _ _ _ _ _).
  assert (H5 : hinv h5 tags) by (apply hinv_set; [exact HI|exact R2|discriminate]). assert (X5 : ext h h5) by (apply ext_set; exact R2).
  assert (H6 : hinv h6 tags) by (apply hinv_set; [exact H5|apply X5; exact R3|discriminate]). assert (X6 : ext h5 h6) by (apply ext_set, X5; exact R3).
  assert (X : ext h h6) by (eapply ext_trans; eauto). assert (G : grows tags tags) by (intros l t E; exact E).
  pose proof (list_shape _ _ _ HLx) as SL0. assert (SL6 : shape_at h6 L = Some SLst) by (apply X; exact SL0).
  pose proof (rep_mono _ _ _ _ _ _ X G R) as (R1' & R4 & R5 & G1 & G2 & G3 & G4 & G5 & _).
  assert (RX : rep_ok h6 tags L x').
  { unfold x'. split; [exact R1|]. cbn [h_dpos h_dneg h_pos h_neg h_opos h_oneg h_subs]. rewrite !removelast_length, L1, L2. repeat (split; [first [assumption|reflexivity|apply Forall_removelast; assumption]|]). reflexivity. }
  assert (N6L : exists o, nth_error h6 L = Some o) by (destruct (shape_list _ _ SL6) as (xl & Exl); unfold list_at in Exl; destruct (nth_error h6 L); [eauto|discriminate]). destruct N6L as (oL & N6L).
  assert (O6 : forall l, l <> h_dpos x -> l <> h_dneg x -> nth_error h6 l = nth_error h l) by (intros l N1 N2; unfold h6, h5; rewrite !nth_set_other; auto).
  eexists. exists x'. eexists. split; [reflexivity|]. split; [reflexivity|]. split; [unfold list_at; rewrite (nth_set_same _ _ _ _ N6L); reflexivity|]. split; [|split; [|split; reflexivity]].
  - assert (V : view (set_at h6 L (OList x')) x' = view h6 x').
    { apply (view_frame _ _ _ _ _ RX). intros l r E. apply nth_set_other. intros ->. rewrite R1 in E. discriminate. }
    rewrite V. unfold view, x'. cbn [h_dpos h_dneg h_dist h_pos h_neg h_opos h_oneg h_subs].
    destruct (shape_bits _ _ R2) as (b1 & _ & Nb1). destruct (shape_bits _ _ R3) as (b2 & _ & Nb2).
    assert (Bp : bits_at h6 (h_dpos x) = Some (bits_or dp p)) by (unfold bits_at, h6; rewrite nth_set_other by congruence; unfold h5; rewrite (nth_set_same _ _ _ _ Nb1); reflexivity).
    assert (Bn : bits_at h6 (h_dneg x) = Some (bits_or dn q)) by (unfold bits_at, h6; erewrite nth_set_same; [reflexivity|]; unfold h5; rewrite nth_set_other by exact Npn; exact Nb2).
    assert (Old : forall l, nth_error tags l = Some (Part L RStored) -> nth_error h6 l = nth_error h l) by (intros l Tl; apply O6; intros ->; congruence).
    assert (Ob : forall l r, Forall (bits_part h tags L RStored) l -> all_some (bits_at h) l = Some r -> all_some (bits_at h6) (removelast l) = Some (removelast r)).
    { intros l r F E. apply all_some_removelast. rewrite <- E. apply all_some_ext. intros y Iy. rewrite Forall_forall in F. destruct (F y Iy) as [_ Ty]. unfold bits_at. rewrite (Old _ Ty). reflexivity. }
    assert (Os : all_some (subgroup_value h6) (removelast (h_subs x)) = Some (removelast gs)).
    { apply all_some_removelast. rewrite <- Egs. apply all_some_ext. intros y Iy. rewrite Forall_forall in F5. destruct (F5 y Iy) as (d' & t' & S1 & S2 & T1 & T2). apply sub_shape in S1. unfold subgroup_value.
      assert (E : sub_at h6 y = sub_at h y) by (unfold sub_at; rewrite (Old _ T1); reflexivity). rewrite E, S1. unfold pat_at. rewrite (Old _ T2). reflexivity. }
    rewrite Bp, Bn, Os, (Ob _ _ F1 Eps), (Ob _ _ F2 Ens), (Ob _ _ F3 Eops), (Ob _ _ F4 Eons). reflexivity.
  - constructor.
    + apply hinv_list; auto.
    + eapply ext_trans; [exact X|]. apply ext_set. exact SL6.
    + exact G.
    + intros l tg Tl Nl Np Nq. rewrite nth_set_other by exact Nl. apply O6; intros ->; [rewrite R2' in Tl|rewrite R3' in Tl]; injection Tl as <-; congruence.
Qed.
Lemma new_list_ok : forall h tags bp bn n0 v, hinv h tags -> sl_init bp bn n0 = Ok v ->
  let n := length h in let x := HL n (n + 1) (bits_count bp, n0) [] [] [] [] [] in
  let h' := h ++ [OBits bp; OBits bn; OList x] in let tags' := tags ++ [Part (n + 2) RPos; Part (n + 2) RNeg; Client] in
  hinv h' tags' /\ ext h h' /\ grows tags tags' /\ list_at h' (n + 2) = Some x /\ view h' x = Some v.
Proof.
  intros h tags bp bn n0 v HI Hi n x h' tags'. pose proof HI as (IL & IS & IR).
  set (h2 := (h ++ [OBits bp]) ++ [OBits bn]). set (t2 := (tags ++ [Part (n + 2) RPos]) ++ [Part (n + 2) RNeg]).
  assert (H2 : hinv h2 t2) by (apply hinv_alloc; [apply hinv_alloc; [exact HI|exact I]|exact I]).
  assert (E2 : h' = h2 ++ [OList x]) by (unfold h2, h'; rewrite <- !app_assoc; reflexivity). assert (T2 : tags' = t2 ++ [Client]) by (unfold t2, tags'; rewrite <- !app_assoc; reflexivity).
  assert (L2 : length h2 = n + 2) by (unfold h2; rewrite !app_length; cbn [length]; unfold n; lia). assert (Lt : length t2 = n + 2) by (rewrite (proj1 H2); exact L2).
  assert (X : ext h h') by (rewrite E2; eapply ext_trans; [|apply ext_alloc]; unfold h2; eapply ext_trans; apply ext_alloc).
  assert (G : grows tags tags') by apply grows_app.
  assert (N0 : nth_error h' n = Some (OBits bp)) by (unfold h'; rewrite nth_error_app2, Nat.sub_diag by (unfold n; lia); reflexivity).
  assert (N1 : nth_error h' (n + 1) = Some (OBits bn)) by (unfold h'; rewrite nth_error_app2 by (unfold n; lia); replace (n + 1 - length h) with 1 by (unfold n; lia); reflexivity).
  assert (N2 : nth_error h' (n + 2) = Some (OList x)) by (rewrite E2, <- L2; apply nth_app_new).
  assert (Q0 : nth_error tags' n = Some (Part (n + 2) RPos)) by (unfold tags'; rewrite nth_error_app2 by (unfold n; lia); replace (n - length tags) with 0 by (unfold n; lia); reflexivity).
  assert (Q1 : nth_error tags' (n + 1) = Some (Part (n + 2) RNeg)) by (unfold tags'; rewrite nth_error_app2 by (unfold n; lia); replace (n + 1 - length tags) with 1 by (unfold n; lia); reflexivity).
  assert (Q2 : nth_error tags' (n + 2) = Some Client) by (rewrite T2, <- Lt; apply nth_app_new).
  assert (RX : rep_ok h' tags' (n + 2) x).
  { split; [exact Q2|]. cbn [x h_dpos h_dneg h_pos h_neg h_opos h_oneg h_subs length]. split; [split; [unfold shape_at; rewrite N0; reflexivity|exact Q0]|]. split; [split; [unfold shape_at; rewrite N1; reflexivity|exact Q1]|]. repeat (split; [constructor|]). reflexivity. }
  split; [|split; [exact X|split; [exact G|split]]].
  - destruct H2 as (A & B & C). split; [rewrite E2, T2, !app_length, A; reflexivity|]. split.
    + intros l d t E. rewrite E2 in E. rewrite E2. apply (ext_alloc h2 (OList x)). destruct (shape_at h2 l) as [s|] eqn:S0.
      * pose proof (ext_alloc h2 (OList x) _ _ S0) as E'. rewrite E in E'. injection E' as <-. eapply B; eauto.
      * apply shape_none in S0. pose proof (shape_lt _ _ _ E) as L. rewrite app_length in L. cbn [length] in L. assert (l = length h2) by lia. subst l. rewrite shape_new in E. discriminate.
    + intros L y E. destruct (Nat.eq_dec L (n + 2)) as [->|Ne]; [unfold list_at in E; rewrite N2 in E; injection E as <-; exact RX|].
      apply (rep_mono h2 t2); [rewrite E2; apply ext_alloc|rewrite T2; apply grows_app|]. apply C. unfold list_at in *. destruct (nth_error h2 L) as [z|] eqn:N.
      * rewrite E2, (nth_app_old _ _ _ _ N) in E. exact E.
      * apply nth_error_None in N. assert (Z : nth_error h' L = None) by (apply nth_error_None; rewrite E2, app_length; cbn [length]; lia). rewrite Z in E. discriminate.
  - unfold list_at. rewrite N2. reflexivity.
  - unfold view. cbn [x h_dpos h_dneg h_dist h_pos h_neg h_opos h_oneg h_subs all_some]. unfold bits_at. rewrite N0, N1. unfold sl_init in Hi. destruct (negb (n0 =? length bp)); [discriminate|]. destruct (negb (n0 =? length bn)); [discriminate|]. injection Hi as <-. reflexivity.
Qed.
