(** Proofs about AliasModel.v: the invariant of client programs. *)
From Coq Require Import Lia.
From Verif Require Export AliasProofs.
Open Scope list_scope.
Open Scope nat_scope.

(** The location of the Pattern of a Pattern or Subgroup. *)
Definition ploc (h : heap) (l : loc) : option loc := match shape_at h l with Some SPat => Some l | Some (SSub d _) => Some d | _ => None end.
Definition client (h : heap) (tags : list tag) (l : loc) : Prop := nth_error tags l = Some Client /\ forall d t, shape_at h l = Some (SSub d t) -> nth_error tags d = Some Client.
Record inv (fl : list bool) (rt : list nat) (st : state) (tags : list tag) : Prop := {
  v_heap : hinv (st_heap st) tags; v_fl : length fl = length (st_env st); v_rt : length rt = length (st_env st);
  v_env : forall x l, var st x = Some l -> (exists s, shape_at (st_heap st) l = Some s) /\ (nth x fl false = false -> client (st_heap st) tags l);
  v_list : forall x y L, var st x = Some L -> var st y = Some L -> shape_at (st_heap st) L = Some SLst -> x = y;
  v_bits : forall x y l, var st x = Some l -> var st y = Some l -> nth x fl false = false -> nth y fl false = false -> shape_at (st_heap st) l = Some SBits -> x = y;
  v_le : forall x, x < length rt -> nth x rt 0 <= x;
  v_root : forall x y lx ly dx dy, var st x = Some lx -> var st y = Some ly -> nth x fl false = false -> nth y fl false = false ->
           ploc (st_heap st) lx = Some dx -> ploc (st_heap st) ly = Some dy -> (dx = dy <-> nth x rt 0 = nth y rt 0) }.
Lemma var_lt : forall st x l, var st x = Some l -> x < length (st_env st).
Proof. intros st x l E. apply nth_error_Some. unfold var in E. destruct (nth_error (st_env st) x); [discriminate|discriminate]. Qed.
Lemma var_push : forall h env r h' x, var (ST h' (env ++ [r])) x = if x =? length env then r else var (ST h env) x.
Proof.
  intros h env r h' x. unfold var. cbn [st_env]. destruct (x =? length env) eqn:E; [apply Nat.eqb_eq in E; subst; rewrite nth_app_new; destruct r; auto|]. apply Nat.eqb_neq in E.
  destruct (Nat.lt_ge_cases x (length env)) as [L|G]; [rewrite nth_error_app1 by exact L; reflexivity|].
  assert (A : nth_error (env ++ [r]) x = None) by (apply nth_error_None; rewrite app_length; cbn; lia). assert (B : nth_error env x = None) by (apply nth_error_None; lia). rewrite A, B. reflexivity.
Qed.
Lemma nth_push : forall {A} (l : list A) a d x, nth x (l ++ [a]) d = if x =? length l then a else nth x l d.
Proof.
  intros A l a d x. destruct (x =? length l) eqn:E; [apply Nat.eqb_eq in E; subst; rewrite app_nth2, Nat.sub_diag by lia; reflexivity|]. apply Nat.eqb_neq in E.
  destruct (Nat.lt_ge_cases x (length l)) as [L|G]; [apply app_nth1; exact L|]. rewrite !nth_overflow; auto. - rewrite app_length. cbn. lia.
Qed.
Lemma ploc_ext : forall h h' l d, ext h h' -> ploc h l = Some d -> ploc h' l = Some d.
Proof. intros h h' l d E P. unfold ploc in *. destruct (shape_at h l) as [s|] eqn:S0; [|discriminate]. rewrite (E _ _ S0). exact P. Qed.
Lemma ploc_back : forall h h' l d s, ext h h' -> shape_at h l = Some s -> ploc h' l = Some d -> ploc h l = Some d.
Proof. intros h h' l d s E S0 P. unfold ploc in *. rewrite (E _ _ S0) in P. rewrite S0. exact P. Qed.
Lemma ploc_shape : forall h tags l d, hinv h tags -> ploc h l = Some d -> shape_at h d = Some SPat.
Proof. intros h tags l d (_ & B & _) P. unfold ploc in P. destruct (shape_at h l) as [[]|] eqn:S0; try discriminate; injection P as <-; [exact S0|eapply B; eauto]. Qed.
Lemma inv_push : forall fl rt st tags h' tags' f k r, inv fl rt st tags -> hinv h' tags' -> ext (st_heap st) h' -> grows tags tags' -> k <= length (st_env st) ->
  match r with
  | None => True
  | Some l => (exists s, shape_at h' l = Some s) /\ (f = false -> client h' tags' l) /\ (shape_at h' l = Some SLst \/ (f = false /\ shape_at h' l = Some SBits) -> shape_at (st_heap st) l = None) /\
      (f = false -> forall d, ploc h' l = Some d -> (shape_at (st_heap st) d = None /\ k = length (st_env st)) \/
         (exists y ly, var st y = Some ly /\ nth y fl false = false /\ ploc (st_heap st) ly = Some d /\ k = nth y rt 0))
  end -> inv (fl ++ [f]) (rt ++ [k]) (ST h' (st_env st ++ [r])) tags'.
Proof.
  intros fl rt [h env] tags h' tags' f k r HI HH X G Hk Hr. cbn [st_heap st_env] in *. destruct HI as [A B C D E EB F R]. cbn [st_heap st_env] in *.
  constructor; cbn [st_heap st_env].
  - exact HH.
  - rewrite !app_length, B. reflexivity.
  - rewrite !app_length, C. reflexivity.
  - intros x l. rewrite (var_push h), nth_push, B. destruct (x =? length env) eqn:Ex.
    + intros ->. destruct Hr as (H1 & H2 & _). auto.
    + intros V. destruct (D x l V) as ((s & S1) & S2). split; [exists s; apply X; exact S1|]. intros Hf. destruct (S2 Hf) as [T1 T2]. split; [apply G; exact T1|].
      intros d t Sd. apply G. apply (T2 d t). rewrite (X _ _ S1) in Sd. rewrite S1. exact Sd.
  - intros x y L. rewrite !(var_push h). destruct (x =? length env) eqn:Ex; destruct (y =? length env) eqn:Ey.
    + intros _ _ _. apply Nat.eqb_eq in Ex. apply Nat.eqb_eq in Ey. congruence.
    + intros -> V S0. destruct Hr as (_ & _ & H3 & _). destruct (D y L V) as ((s & S1) & _). rewrite (H3 (or_introl S0)) in S1. discriminate.
    + intros V -> S0. destruct Hr as (_ & _ & H3 & _). destruct (D x L V) as ((s & S1) & _). rewrite (H3 (or_introl S0)) in S1. discriminate.
    + intros V W S0. destruct (D x L V) as ((s & S1) & _). apply (E x y L V W). rewrite (X _ _ S1) in S0. congruence.
  - intros x y L. rewrite !(var_push h), !nth_push, B. destruct (x =? length env) eqn:Ex; destruct (y =? length env) eqn:Ey.
    + intros _ _ _ _ _. apply Nat.eqb_eq in Ex. apply Nat.eqb_eq in Ey. congruence.
    + intros -> V Ff _ S0. destruct Hr as (_ & _ & H3 & _). destruct (D y L V) as ((s & S1) & _). rewrite (H3 (or_intror (conj Ff S0))) in S1. discriminate.
    + intros V -> _ Ff S0. destruct Hr as (_ & _ & H3 & _). destruct (D x L V) as ((s & S1) & _). rewrite (H3 (or_intror (conj Ff S0))) in S1. discriminate.
    + intros V W Fx Fy S0. destruct (D x L V) as ((s & S1) & _). apply (EB x y L V W Fx Fy). rewrite (X _ _ S1) in S0. congruence.
  - intros x. rewrite app_length, nth_push. cbn [length]. destruct (x =? length rt) eqn:Ex; [apply Nat.eqb_eq in Ex; lia|apply Nat.eqb_neq in Ex]. intros Hx. apply F. lia.
  - assert (K : forall y ly dy l d, r = Some l -> f = false -> ploc h' l = Some d -> var (ST h env) y = Some ly -> nth y fl false = false -> ploc h' ly = Some dy -> (d = dy <-> k = nth y rt 0)).
    { intros y ly dy l d -> Hf Pd Vy Fy Py. destruct Hr as (_ & _ & _ & H4). destruct (D y ly Vy) as ((s & S1) & _). pose proof (ploc_back _ _ _ _ _ X S1 Py) as Py0.
      pose proof (ploc_shape _ _ _ _ A Py0) as Sy. destruct (H4 Hf d Pd) as [[N ->]|(z & lz & Vz & Fz & Pz & ->)].
      - pose proof (var_lt _ _ _ Vy) as Ly. cbn [st_env] in Ly. assert (nth y rt 0 <= y) by (apply F; lia). split; [intros ->; congruence|intros Eq; lia].
      - eapply R; eauto. }
    intros x y lx ly dx dy. rewrite !(var_push h), !nth_push, B, C. destruct (x =? length env) eqn:Ex; destruct (y =? length env) eqn:Ey; intros Vx Vy Fx Fy Px Py.
    + rewrite Vx in Vy. injection Vy as ->. rewrite Px in Py. injection Py as ->. split; auto.
    + eapply K; eauto.
    + pose proof (K x lx dx ly dy Vy Fy Py Vx Fx Px) as KK. split; intros E1; symmetry; apply KK; auto.
    + destruct (D x lx Vx) as ((sx & Sx) & _). destruct (D y ly Vy) as ((sy & Sy) & _). eapply R; eauto; eapply ploc_back; eauto.
Qed.
(** What an operation does to the other objects. *)
Record stepped (st : state) (tags : list tag) (o : op) (h' : heap) (tags' : list tag) : Prop := {
  s_ext : ext (st_heap st) h'; s_grows : grows tags tags';
  s_client : forall l, nth_error tags l = Some Client -> shape_at (st_heap st) l <> Some SLst -> (forall x, target o = Some x -> var st x <> Some l) -> nth_error h' l = nth_error (st_heap st) l;
  s_stored : forall l L, nth_error tags l = Some (Part L RStored) -> nth_error h' l = nth_error (st_heap st) l;
  s_lists : forall x L y v, var st x = Some L -> list_at (st_heap st) L = Some y -> view (st_heap st) y = Some v ->
     exists y', list_at h' L = Some y' /\ view h' y' = Some (sl_history v (call st o x)) /\ h_dpos y' = h_dpos y /\ h_dneg y' = h_dneg y }.
(** The operation is not on a list: the lists and their parts are as before. *)
Lemma stepped_frame : forall st tags o h' tags', hinv (st_heap st) tags -> ext (st_heap st) h' -> grows tags tags' ->
  (forall l, l < length (st_heap st) -> (forall x, target o = Some x -> var st x <> Some l) -> nth_error h' l = nth_error (st_heap st) l) ->
  (forall x l, target o = Some x -> var st x = Some l -> nth_error h' l = nth_error (st_heap st) l \/ (nth_error tags l = Some Client /\ shape_at (st_heap st) l <> Some SLst)) ->
  (forall x, call st o x = []) -> stepped st tags o h' tags'.
Proof.
  intros st tags o h' tags' HI X G F T C. pose proof HI as (IL & _ & IR).
  assert (U : forall l, l < length (st_heap st) -> (nth_error tags l <> Some Client \/ shape_at (st_heap st) l = Some SLst) -> nth_error h' l = nth_error (st_heap st) l).
  { intros l Hl Hp. destruct (target o) as [x|] eqn:Et; [|apply F; [exact Hl|intros x; discriminate]]. destruct (var st x) as [k|] eqn:Ev.
    - destruct (Nat.eq_dec k l) as [->|N]; [destruct (T x l eq_refl Ev) as [E|[E1 E2]]; [exact E|destruct Hp; congruence]|]. apply F; [exact Hl|]. intros z [= <-]. congruence.
    - apply F; [exact Hl|]. intros z [= <-]. congruence. }
  constructor; auto.
  - intros l Tl _ Hx. apply F; [rewrite <- IL; eapply tag_lt; eauto|exact Hx].
  - intros l L Tl. apply U; [rewrite <- IL; eapply tag_lt; eauto|left; congruence].
  - intros x L y v V Ey Ev. exists y. pose proof (list_shape _ _ _ Ey) as SL0. pose proof (shape_lt _ _ _ SL0) as DL. split; [unfold list_at; rewrite U; auto|]. split; [|auto].
    rewrite C. cbn [sl_history fold_left]. rewrite <- Ev. apply (view_frame _ _ _ _ _ (IR _ _ Ey)). intros l r Tl. apply U; [rewrite <- IL; eapply tag_lt; eauto|left; congruence].
Qed.
Lemma stepped_same : forall st tags o, hinv (st_heap st) tags -> (forall x, call st o x = []) -> stepped st tags o (st_heap st) tags.
Proof. intros st tags o HI C. apply stepped_frame; auto; [apply ext_refl|intros l t E; exact E]. Qed.
Lemma stepped_append : forall st tags o r tr, hinv (st_heap st) tags -> target o = None -> (forall x, call st o x = []) -> stepped st tags o (st_heap st ++ r) (tags ++ tr).
Proof.
  intros st tags o r tr HI T C. apply stepped_frame; auto.
  - intros l s E. unfold shape_at in *. rewrite nth_old; [exact E|eapply shape_lt; exact E].
  - apply grows_app.
  - intros l Hl _. apply nth_old. exact Hl.
  - intros x l E. rewrite T in E. discriminate.
Qed.
Lemma stepped_set : forall st tags o x l q, hinv (st_heap st) tags -> target o = Some x -> var st x = Some l -> client (st_heap st) tags l -> shape_at (st_heap st) l = Some (shape_of q) -> shape_of q <> SLst ->
  (forall x, call st o x = []) -> stepped st tags o (set_at (st_heap st) l q) tags.
Proof.
  intros st tags o x l q HI T V [Cl _] S0 Nl C. apply stepped_frame; auto.
  - apply ext_set. exact S0.
  - intros k t E; exact E.
  - intros k _ Hx. apply nth_set_other. intros ->. apply (Hx x T). exact V.
  - intros y k E W. rewrite T in E. injection E as <-. rewrite V in W. injection W as <-. right. split; [exact Cl|]. rewrite S0. congruence.
Qed.
Definition flag (fl : list bool) (o : op) : bool :=
  match o with GetSubgroup _ _ | GetBits _ _ _ | DefaultPositives _ | DefaultNegatives _ => true | NewSubgroup x _ | Description x => nth x fl false | _ => false end.
Definition rooted (rt : list nat) (o : op) : nat := match o with NewSubgroup x _ | Description x => nth x rt 0 | _ => length rt end.
Lemma the_ok : forall {A} (at_ : heap -> loc -> option A) e st x l a, the at_ e st x = Ok (l, a) -> var st x = Some l /\ at_ (st_heap st) l = Some a.
Proof. intros A at_ e st x l a E. unfold the in E. destruct (var st x) as [k|]; [|discriminate]. destruct (at_ (st_heap st) k) as [b|] eqn:B; [|discriminate]. injection E as -> ->. auto. Qed.
Lemma inv_step : forall fl rt st tags o, inv fl rt st tags -> (forall x, target o = Some x -> nth x fl false = false) ->
  exists tags', inv (fl ++ [flag fl o]) (rt ++ [rooted rt o]) (step st o) tags' /\ stepped st tags o (st_heap (step st o)) tags'.
Proof.
  intros fl rt st tags o HI HT. pose proof (v_heap _ _ _ _ HI) as HH. pose proof (v_rt _ _ _ _ HI) as Lrt. pose proof HH as (IL & IS & IR).
  assert (Hk : rooted rt o <= length (st_env st)).
  { assert (K : forall x, nth x rt 0 <= length (st_env st)) by (intros x; destruct (Nat.lt_ge_cases x (length rt)) as [H|H]; [pose proof (v_le _ _ _ _ HI x H); lia|rewrite nth_overflow by lia; lia]). destruct o; cbn [rooted]; try lia; apply K. }
  (* nothing happens, or only a result is returned *)
  assert (Same : forall r, (forall x, call st o x = []) -> match r with None => True | Some l =>
      (exists s, shape_at (st_heap st) l = Some s) /\ (flag fl o = false -> client (st_heap st) tags l) /\ (shape_at (st_heap st) l = Some SLst \/ (flag fl o = false /\ shape_at (st_heap st) l = Some SBits) -> shape_at (st_heap st) l = None) /\
      (flag fl o = false -> forall d, ploc (st_heap st) l = Some d -> (shape_at (st_heap st) d = None /\ rooted rt o = length (st_env st)) \/
         (exists y ly, var st y = Some ly /\ nth y fl false = false /\ ploc (st_heap st) ly = Some d /\ rooted rt o = nth y rt 0)) end ->
    step st o = ST (st_heap st) (st_env st ++ [r]) -> exists tags', inv (fl ++ [flag fl o]) (rt ++ [rooted rt o]) (step st o) tags' /\ stepped st tags o (st_heap (step st o)) tags').
  { intros r C Hr E. exists tags. rewrite E. split; [apply (inv_push fl rt st tags); auto; try apply ext_refl; try (intros l t H; exact H)|]. cbn [st_heap]. apply stepped_same; auto. }
  assert (Fail : forall e, exec st o = Err e -> (forall x, call st o x = []) -> exists tags', inv (fl ++ [flag fl o]) (rt ++ [rooted rt o]) (step st o) tags' /\ stepped st tags o (st_heap (step st o)) tags').
  { intros e E C. apply (Same None C I). unfold step. rewrite E. reflexivity. }
  (* a new object without parts *)
  assert (New : forall q, exec st o = Ok (st_heap st ++ [q], Some (length (st_heap st))) -> target o = None -> (forall x, call st o x = []) -> shape_of q <> SLst ->
    (forall d t, q = OSubgroup d t -> shape_at (st_heap st) d = Some SPat /\ exists y, var st y = Some d /\ flag fl o = nth y fl false /\ rooted rt o = nth y rt 0) ->
    ((forall d t, q <> OSubgroup d t) -> rooted rt o = length rt) ->
    exists tags', inv (fl ++ [flag fl o]) (rt ++ [rooted rt o]) (step st o) tags' /\ stepped st tags o (st_heap (step st o)) tags').
  { intros q E T C Nq Hq Hr. exists (tags ++ [Client]). unfold step. rewrite E. cbn [st_heap]. split; [|apply stepped_append; auto].
    assert (HA : hinv (st_heap st ++ [q]) (tags ++ [Client])) by (apply hinv_alloc; [exact HH|]; destruct q; first [exact I|apply (Hq _ _ eq_refl)|exfalso; apply Nq; reflexivity]).
    assert (TN : nth_error (tags ++ [Client]) (length (st_heap st)) = Some Client) by (rewrite <- IL; apply nth_app_new).
    apply (inv_push fl rt st tags); auto; [apply ext_alloc|apply grows_app|]. split; [exists (shape_of q); apply shape_new|]. split; [|split].
    - intros Ff. split; [exact TN|]. intros d t Sd. rewrite shape_new in Sd. destruct q; try discriminate. injection Sd as -> ->. destruct (Hq _ _ eq_refl) as (_ & y & Vy & Fy & _). apply grows_app. rewrite Ff in Fy.
      apply (v_env _ _ _ _ HI y d Vy). symmetry. exact Fy.
    - intros _. destruct (shape_at (st_heap st) (length (st_heap st))) eqn:S0; auto; apply shape_lt in S0; lia.
    - intros Ff d Pd. unfold ploc in Pd. rewrite shape_new in Pd. destruct q as [p|d' t'|b|x]; try discriminate; cbn [shape_of] in Pd; injection Pd as <-.
      + left. split; [destruct (shape_at (st_heap st) (length (st_heap st))) eqn:S0; auto; apply shape_lt in S0; lia|]. rewrite Hr by discriminate. exact Lrt.
      + right. destruct (Hq _ _ eq_refl) as (Sd & y & Vy & Fy & Ry). exists y, d'. split; [exact Vy|]. split; [congruence|]. split; [unfold ploc; rewrite Sd; reflexivity|exact Ry]. }
  (* an object of the client is changed in place *)
  assert (Chg : forall x l q, exec st o = Ok (set_at (st_heap st) l q, None) -> target o = Some x -> var st x = Some l -> shape_at (st_heap st) l = Some (shape_of q) -> shape_of q <> SLst -> (forall x, call st o x = []) ->
    exists tags', inv (fl ++ [flag fl o]) (rt ++ [rooted rt o]) (step st o) tags' /\ stepped st tags o (st_heap (step st o)) tags').
  { intros x l q E T V S0 Nq C. exists tags. unfold step. rewrite E. cbn [st_heap]. split.
    - apply (inv_push fl rt st tags); auto; [apply hinv_set; auto|apply ext_set; exact S0|intros k t H; exact H].
    - eapply stepped_set; eauto. apply (v_env _ _ _ _ HI x l V). apply HT. exact T. }
  destruct o as [l|x s|x s|x i|x|x t|x|x|b|x i b|xp xn n|x g xp xn|x|x i|f x i|x|x]; cbn [exec alloc] in *.
  - apply (New (OPattern (pattern_init l))); auto; [discriminate|intros; discriminate].
  - destruct (the pat_at AttributeError st x) as [[l p]|e] eqn:E; cbn [bind] in *; [|apply (Fail e); auto]. apply the_ok in E. destruct E as [V P]. apply (Chg x l (OPattern (add_selector p s))); auto; [apply (pat_shape _ _ _ P)|discriminate].
  - destruct (the pat_at AttributeError st x) as [[l p]|e] eqn:E; cbn [bind] in *; [|apply (Fail e); auto]. apply the_ok in E. destruct E as [V P]. apply (Chg x l (OPattern (remove_selector p s))); auto; [apply (pat_shape _ _ _ P)|discriminate].
  - destruct (the pat_at AttributeError st x) as [[l p]|e] eqn:E; cbn [bind fst snd] in *; [|apply (Fail e); auto]. apply the_ok in E. destruct E as [V P]. destruct (remove_by_index p i) as [q|e] eqn:Eq; cbn [bind] in *; [|apply (Fail e); auto].
    apply (Chg x l (OPattern q)); auto; [apply (pat_shape _ _ _ P)|discriminate].
  - destruct (the pat_at AttributeError st x) as [[l p]|e] eqn:E; cbn [bind] in *; [|apply (Fail e); auto]. apply (New (OPattern (pattern_copy p))); auto; [discriminate|intros; discriminate].
  - destruct (the pat_at TypeError st x) as [[l p]|e] eqn:E; cbn [bind] in *; [|apply (Fail e); auto]. apply the_ok in E. destruct E as [V P].
    apply (New (OSubgroup l t)); auto; [discriminate| |intros H; exfalso; apply (H l t); reflexivity]. intros d t' [= <- <-]. split; [apply (pat_shape _ _ _ P)|]. exists x. auto.
  - destruct (the sub_at AttributeError st x) as [[l [d t]]|e] eqn:E; cbn [bind fst snd] in *; [|apply (Fail e); auto]. apply the_ok in E. destruct E as [V P]. pose proof (proj1 (sub_shape _ _ _ _) P) as S0. pose proof (IS _ _ _ S0) as Sd. destruct (shape_pat _ _ Sd) as (p & Ep & _).
    set (h := st_heap st) in *. set (h1 := h ++ [OPattern (pattern_copy p)]) in *.
    assert (H1 : hinv h1 (tags ++ [Client])) by (apply hinv_alloc; [exact HH|exact I]).
    assert (H2 : hinv (h1 ++ [OSubgroup (length h) t]) ((tags ++ [Client]) ++ [Client])) by (apply hinv_alloc; [exact H1|apply shape_new]).
    exists ((tags ++ [Client]) ++ [Client]). unfold step.
    assert (Ex : exec st (CopySubgroup x) = Ok (h1 ++ [OSubgroup (length h) t], Some (length h1))).
    { cbn [exec]. unfold the. rewrite V. fold h. rewrite P. cbn [bind fst]. unfold copy_subgroup, follow. rewrite P. cbn [bind fst]. rewrite Ep. cbn [bind alloc snd fst]. reflexivity. }
    rewrite Ex. cbn [st_heap].
    assert (Th : nth_error ((tags ++ [Client]) ++ [Client]) (length h) = Some Client) by (apply nth_app_old; rewrite <- IL; apply nth_app_new).
    assert (Th1 : nth_error ((tags ++ [Client]) ++ [Client]) (length h1) = Some Client) by (rewrite <- (proj1 H1); apply nth_app_new).
    assert (Xh : ext h (h1 ++ [OSubgroup (length h) t])) by (eapply ext_trans; [apply ext_alloc|apply ext_alloc]).
    split; [|unfold h1; rewrite <- !app_assoc; apply stepped_append; auto].
    apply (inv_push fl rt st tags); auto; [intros l0 t0 H; apply nth_app_old, nth_app_old; exact H|]. split; [eexists; apply shape_new|]. split; [|split].
    + intros _. split; [exact Th1|]. intros d' t' Sd'. rewrite shape_new in Sd'. injection Sd' as <- <-. exact Th.
    + rewrite shape_new. intros [Q|[_ Q]]; discriminate.
    + intros _ d' Pd. unfold ploc in Pd. rewrite shape_new in Pd. injection Pd as <-. left. split; [fold h; destruct (shape_at h (length h)) eqn:S1; auto; apply shape_lt in S1; lia|]. cbn [rooted]. exact Lrt.
  - destruct (the sub_at AttributeError st x) as [[l [d t]]|e] eqn:E; cbn [bind fst snd] in *; [|apply (Fail e); auto]. apply the_ok in E. destruct E as [V P]. pose proof (proj1 (sub_shape _ _ _ _) P) as S0. pose proof (IS _ _ _ S0) as Sd.
    apply (Same (Some d)); [auto| |unfold step; cbn [exec]; unfold the; rewrite V, P; reflexivity]. split; [eauto|]. split; [|split].
    + intros Ff. cbn [flag] in Ff. destruct (v_env _ _ _ _ HI x l V) as [_ Cl]. destruct (Cl Ff) as [_ Cd]. split; [apply (Cd _ _ S0)|]. intros d' t' S1. congruence.
    + intros [Q|[_ Q]]; congruence.
    + intros Ff d' Pd. right. exists x, l. cbn [flag] in Ff. split; [exact V|]. split; [exact Ff|]. split; [|reflexivity]. unfold ploc in *. rewrite S0. rewrite Sd in Pd. exact Pd.
  - apply (New (OBits b)); auto; [discriminate|intros; discriminate].
  - destruct (the bits_at AttributeError st x) as [[l p]|e] eqn:E; cbn [bind fst snd] in *; [|apply (Fail e); auto]. apply the_ok in E. destruct E as [V P]. destruct (i <? length p) eqn:Li; [|apply (Fail IndexError); auto].
    apply (Chg x l (OBits (set_at p i b))); auto; [apply (bits_shape _ _ _ P)|discriminate].
  - destruct (the bits_at TypeError st xp) as [[lp p]|e] eqn:Ep; cbn [bind fst snd] in *; [|apply (Fail e); auto]. destruct (the bits_at TypeError st xn) as [[ln q]|e] eqn:Eq; cbn [bind fst snd] in *; [|apply (Fail e); auto].
    destruct (negb (n =? length p)) eqn:N1; [apply (Fail ValueError); auto|]. destruct (negb (n =? length q)) eqn:N2; [apply (Fail ValueError); auto|].
    assert (Hi : sl_init p q n = Ok (SL p q (bits_count p, n) [] [] [] [] [])) by (unfold sl_init; rewrite N1, N2; reflexivity).
    destruct (new_list_ok _ tags p q n _ HH Hi) as (A & B & C & D & _). set (h := st_heap st) in *. set (m := length h) in *. set (h' := h ++ [OBits p; OBits q; OList _]) in *. set (tags' := tags ++ _) in *.
    assert (Ex : exec st (NewList xp xn n) = Ok (h', Some (m + 2))).
    { cbn [exec]. rewrite Ep. cbn [bind fst snd]. rewrite Eq. cbn [bind fst snd]. rewrite N1, N2. cbn [alloc]. rewrite <- !app_assoc. rewrite !app_length. cbn [app length]. fold h. fold m. reflexivity. }
    exists tags'. unfold step. rewrite Ex. cbn [st_heap]. split; [|unfold h', tags'; apply stepped_append; auto].
    apply (inv_push fl rt st tags); auto. pose proof (list_shape _ _ _ D) as S0. split; [eauto|]. split; [|split].
    + intros _. split; [|intros d t S1; congruence]. apply (proj2 (proj2 A) _ _ D).
    + intros _. fold h. destruct (shape_at h (m + 2)) eqn:S1; auto. apply shape_lt in S1. unfold m in S1. lia.
    + intros _ d Pd. unfold ploc in Pd. rewrite S0 in Pd. discriminate.
  - assert (CF : forall y, y <> x -> call st (AddSubgroup x g xp xn) y = []) by (intros y Ny; cbn [call]; destruct (x =? y) eqn:Exy; auto; apply Nat.eqb_eq in Exy; congruence).
    destruct (the list_at AttributeError st x) as [[L y]|e] eqn:EL.
    2:{ (* not a list *) cbn [bind] in *. exists tags. unfold step. cbn [exec]. rewrite EL. cbn [bind st_heap]. split; [apply (inv_push fl rt st tags); auto; try apply ext_refl; try (intros l t H; exact H)|].
        constructor; [apply ext_refl|intros l t H; exact H|auto|auto|]. intros x' L y v V Ey Ev. exists y. split; [exact Ey|]. split; [|auto]. rewrite CF; [exact Ev|]. intros ->. unfold the in EL. rewrite V, Ey in EL. discriminate. }
    apply the_ok in EL. destruct EL as [VL EyL].
    assert (Raise : forall e, exec st (AddSubgroup x g xp xn) = Err e -> (forall v, view (st_heap st) y = Some v -> sl_history v (call st (AddSubgroup x g xp xn) x) = v) ->
      exists tags', inv (fl ++ [flag fl (AddSubgroup x g xp xn)]) (rt ++ [rooted rt (AddSubgroup x g xp xn)]) (step st (AddSubgroup x g xp xn)) tags' /\ stepped st tags (AddSubgroup x g xp xn) (st_heap (step st (AddSubgroup x g xp xn))) tags').
    { intros e Ee Hc. exists tags. unfold step. rewrite Ee. cbn [st_heap]. split; [apply (inv_push fl rt st tags); auto; try apply ext_refl; try (intros l t H; exact H)|].
      constructor; [apply ext_refl|intros l t H; exact H|auto|auto|]. intros x' L' y' v V Ey Ev. exists y'. split; [exact Ey|]. split; [|auto]. destruct (Nat.eq_dec x' x) as [->|Nx]; [|rewrite CF by exact Nx; exact Ev].
      rewrite VL in V. injection V as <-. rewrite EyL in Ey. injection Ey as <-. rewrite (Hc _ Ev). exact Ev. }
    assert (TL : the list_at AttributeError st x = Ok (L, y)) by (unfold the; rewrite VL, EyL; reflexivity).
    destruct (the sub_at TypeError st g) as [[lg [d t]]|e] eqn:Eg.
    2:{ apply (Raise e); [cbn [exec]; rewrite TL; cbn [bind]; rewrite Eg; reflexivity|]. intros v _. cbn [call]. rewrite Nat.eqb_refl. unfold the in Eg. unfold subgroup_of. destruct (var st g) as [lg|]; [|reflexivity]. unfold subgroup_value. destruct (sub_at (st_heap st) lg); [discriminate|reflexivity]. }
    destruct (the bits_at TypeError st xp) as [[lp p]|e] eqn:Ep.
    2:{ apply (Raise e); [cbn [exec]; rewrite TL; cbn [bind]; rewrite Eg; cbn [bind]; rewrite Ep; reflexivity|]. intros v _. cbn [call]. rewrite Nat.eqb_refl. unfold the in Ep. destruct (subgroup_of st g); [|reflexivity]. unfold bits_of at 1. destruct (var st xp) as [lp|]; [|reflexivity]. destruct (bits_at (st_heap st) lp); [discriminate|reflexivity]. }
    destruct (the bits_at TypeError st xn) as [[ln q]|e] eqn:Eq.
    2:{ apply (Raise e); [cbn [exec]; rewrite TL; cbn [bind]; rewrite Eg; cbn [bind]; rewrite Ep; cbn [bind]; rewrite Eq; reflexivity|]. intros v _. cbn [call]. rewrite Nat.eqb_refl. unfold the in Eq. destruct (subgroup_of st g); [|reflexivity]. destruct (bits_of st xp); [|reflexivity]. unfold bits_of. destruct (var st xn) as [ln|]; [|reflexivity]. destruct (bits_at (st_heap st) ln); [discriminate|reflexivity]. }
    pose proof (the_ok _ _ _ _ _ _ Eg) as [Vg Pg]. pose proof (the_ok _ _ _ _ _ _ Ep) as [Vp Pp]. pose proof (the_ok _ _ _ _ _ _ Eq) as [Vq Pq].
    pose proof (proj1 (sub_shape _ _ _ _) Pg) as Sg. pose proof (IS _ _ _ Sg) as Sd. destruct (shape_pat _ _ Sd) as (pd & Epd & _).
    assert (SV : subgroup_value (st_heap st) lg = Some (SG pd t)) by (unfold subgroup_value; rewrite Pg, Epd; reflexivity).
    assert (CV : call st (AddSubgroup x g xp xn) x = [SLAdd (SG pd t) p q]) by (cbn [call]; rewrite Nat.eqb_refl; unfold subgroup_of, bits_of; rewrite Vg, Vp, Vq, SV, Pp, Pq; reflexivity).
    destruct (view_total _ _ _ _ (IR _ _ EyL)) as (v0 & Ev0). pose proof (add_ok _ tags L y v0 lg _ p q HH EyL Ev0 SV) as AO.
    assert (Ex : exec st (AddSubgroup x g xp xn) = do h <- add_subgroup (st_heap st) L y lg p q; Ok (h, None)) by (cbn [exec]; rewrite TL; cbn [bind]; rewrite Eg; cbn [bind]; rewrite Ep; cbn [bind]; rewrite Eq; reflexivity).
    destruct (add_subgroup (st_heap st) L y lg p q) as [h'|e].
    2:{ apply (Raise e); [rewrite Ex; reflexivity|]. intros v Ev. rewrite Ev0 in Ev. injection Ev as <-. rewrite CV. cbn [sl_history fold_left]. unfold sl_step. rewrite AO. reflexivity. }
    destruct AO as (tags' & y' & v' & A1 & A2 & A3 & [M1 M2 M3 M4] & A5 & A6). exists tags'. unfold step. rewrite Ex. cbn [bind st_heap]. split; [apply (inv_push fl rt st tags); auto|]. constructor; auto.
    + intros l Tl Sl _. apply (M4 l Client Tl); [|discriminate|discriminate]. intros ->. apply Sl. apply (list_shape _ _ _ EyL).
    + intros l L' Tl. apply (M4 l _ Tl); try congruence. intros ->. rewrite (proj1 (IR _ _ EyL)) in Tl. discriminate.
    + intros x' L' z v V Ez Ev. destruct (Nat.eq_dec x' x) as [->|Nx].
      * rewrite VL in V. injection V as <-. rewrite EyL in Ez. injection Ez as <-. rewrite Ev0 in Ev. injection Ev as <-. exists y'. split; [exact A2|]. split; [|auto]. rewrite CV. cbn [sl_history fold_left]. unfold sl_step. rewrite A1. exact A3.
      * assert (NL : L' <> L) by (intros ->; apply Nx; eapply (v_list _ _ _ _ HI); eauto; apply (list_shape _ _ _ EyL)). pose proof (IR _ _ Ez) as RZ. exists z. split; [|split; [|auto]].
        -- unfold list_at. rewrite (M4 L' Client); [exact Ez|apply RZ|exact NL|discriminate|discriminate].
        -- rewrite CF by exact Nx. cbn [sl_history fold_left]. rewrite <- Ev. apply (view_frame _ _ _ _ _ RZ). intros l r Tl. apply (M4 l _ Tl); [|congruence|congruence]. intros ->. rewrite (proj1 (IR _ _ EyL)) in Tl. discriminate.
  - assert (CF : forall y, y <> x -> call st (DeleteLast x) y = []) by (intros y Ny; cbn [call]; destruct (x =? y) eqn:Exy; auto; apply Nat.eqb_eq in Exy; congruence).
    destruct (the list_at AttributeError st x) as [[L y]|e] eqn:EL.
    2:{ cbn [bind] in *. exists tags. unfold step. cbn [exec]. rewrite EL. cbn [bind st_heap]. split; [apply (inv_push fl rt st tags); auto; try apply ext_refl; try (intros l t H; exact H)|].
        constructor; [apply ext_refl|intros l t H; exact H|auto|auto|]. intros x' L y v V Ey Ev. exists y. split; [exact Ey|]. split; [|auto]. rewrite CF; [exact Ev|]. intros ->. unfold the in EL. rewrite V, Ey in EL. discriminate. }
    pose proof (the_ok _ _ _ _ _ _ EL) as [VL EyL]. destruct (view_total _ _ _ _ (IR _ _ EyL)) as (v0 & Ev0).
    destruct (delete_ok _ tags L y v0 HH EyL Ev0) as (h' & y' & v' & D1 & A1 & A2 & A3 & [M1 M2 M3 M4] & A5 & A6).
    assert (Ex : exec st (DeleteLast x) = Ok (h', None)) by (cbn [exec]; rewrite EL; cbn [bind fst snd]; rewrite D1; reflexivity).
    exists tags. unfold step. rewrite Ex. cbn [st_heap]. split; [apply (inv_push fl rt st tags); auto|]. constructor; auto.
    + intros l Tl Sl _. apply (M4 l Client Tl); [|discriminate|discriminate]. intros ->. apply Sl. apply (list_shape _ _ _ EyL).
    + intros l L' Tl. apply (M4 l _ Tl); try congruence. intros ->. rewrite (proj1 (IR _ _ EyL)) in Tl. discriminate.
    + intros x' L' z v V Ez Ev. destruct (Nat.eq_dec x' x) as [->|Nx].
      * rewrite VL in V. injection V as <-. rewrite EyL in Ez. injection Ez as <-. rewrite Ev0 in Ev. injection Ev as <-. exists y'. split; [exact A2|]. split; [|auto]. cbn [call]. rewrite Nat.eqb_refl. cbn [sl_history fold_left]. unfold sl_step. rewrite A1. exact A3.
      * assert (NL : L' <> L) by (intros ->; apply Nx; eapply (v_list _ _ _ _ HI); eauto; apply (list_shape _ _ _ EyL)). pose proof (IR _ _ Ez) as RZ. exists z. split; [|split; [|auto]].
        -- unfold list_at. rewrite (M4 L' Client); [exact Ez|apply RZ|exact NL|discriminate|discriminate].
        -- rewrite CF by exact Nx. cbn [sl_history fold_left]. rewrite <- Ev. apply (view_frame _ _ _ _ _ RZ). intros l r Tl. apply (M4 l _ Tl); [|congruence|congruence]. intros ->. rewrite (proj1 (IR _ _ EyL)) in Tl. discriminate.
  - destruct (the list_at AttributeError st x) as [[L y]|e] eqn:EL; cbn [bind fst snd] in *; [|apply (Fail e); auto]. destruct (get_at (h_subs y) i) as [l|e] eqn:Eg; cbn [bind] in *; [|apply (Fail e); auto].
    pose proof (the_ok _ _ _ _ _ _ EL) as [VL EyL]. pose proof (IR _ _ EyL) as (_ & _ & _ & _ & _ & _ & _ & F5 & _).
    assert (Il : In l (h_subs y)) by (unfold get_at in Eg; destruct (py_index (h_subs y) i); [|discriminate]; destruct (nth_error (h_subs y) n) eqn:En; [|discriminate]; injection Eg as ->; eapply nth_error_In; eauto).
    rewrite Forall_forall in F5. destruct (F5 l Il) as (d & t & S0 & _). apply (Same (Some l)); [auto| |unfold step; cbn [exec]; rewrite EL; cbn [bind snd]; rewrite Eg; reflexivity]. split; [eauto|]. split; [discriminate|]. split; [intros [Q|[Q _]]; [congruence|discriminate Q]|discriminate].
  - destruct (the list_at AttributeError st x) as [[L y]|e] eqn:EL; cbn [bind fst snd] in *; [|apply (Fail e); auto]. destruct (get_at (field f y) i) as [l|e] eqn:Eg; cbn [bind] in *; [|apply (Fail e); auto].
    pose proof (the_ok _ _ _ _ _ _ EL) as [VL EyL]. pose proof (IR _ _ EyL) as (_ & _ & _ & F1 & F2 & F3 & F4 & _).
    assert (Il : In l (field f y)) by (unfold get_at in Eg; destruct (py_index (field f y) i); [|discriminate]; destruct (nth_error (field f y) n) eqn:En; [|discriminate]; injection Eg as ->; eapply nth_error_In; eauto).
    assert (S0 : shape_at (st_heap st) l = Some SBits) by (destruct f; cbn [field] in Il; [rewrite Forall_forall in F1; apply (F1 l Il)|rewrite Forall_forall in F2; apply (F2 l Il)|rewrite Forall_forall in F3; apply (F3 l Il)|rewrite Forall_forall in F4; apply (F4 l Il)]).
    apply (Same (Some l)); [auto| |unfold step; cbn [exec]; rewrite EL; cbn [bind snd]; rewrite Eg; reflexivity]. split; [eauto|]. split; [discriminate|]. split; [intros [Q|[Q _]]; [congruence|discriminate Q]|discriminate].
  - destruct (the list_at AttributeError st x) as [[L y]|e] eqn:EL; cbn [bind fst snd] in *; [|apply (Fail e); auto]. pose proof (the_ok _ _ _ _ _ _ EL) as [VL EyL]. pose proof (IR _ _ EyL) as (_ & (S0 & _) & _).
    apply (Same (Some (h_dpos y))); [auto| |unfold step; cbn [exec]; rewrite EL; reflexivity]. split; [eauto|]. split; [discriminate|]. split; [intros [Q|[Q _]]; [congruence|discriminate Q]|discriminate].
  - destruct (the list_at AttributeError st x) as [[L y]|e] eqn:EL; cbn [bind fst snd] in *; [|apply (Fail e); auto]. pose proof (the_ok _ _ _ _ _ _ EL) as [VL EyL]. pose proof (IR _ _ EyL) as (_ & _ & (S0 & _) & _).
    apply (Same (Some (h_dneg y))); [auto| |unfold step; cbn [exec]; rewrite EL; reflexivity]. split; [eauto|]. split; [discriminate|]. split; [intros [Q|[Q _]]; [congruence|discriminate Q]|discriminate].
Qed.

(** * Programs *)
Lemma run_snoc : forall st p o, run st (p ++ [o]) = step (run st p) o.
Proof. intros st p o. unfold run. rewrite fold_left_app. reflexivity. Qed.
Lemma run_app : forall st p q, run st (p ++ q) = run (run st p) q.
Proof. intros st p q. unfold run. apply fold_left_app. Qed.
Lemma borrowed_snoc : forall p o, borrowed (p ++ [o]) = borrowed p ++ [flag (borrowed p) o].
Proof. intros p o. unfold borrowed. rewrite fold_left_app. reflexivity. Qed.
Lemma roots_snoc : forall p o, roots (p ++ [o]) = roots p ++ [rooted (roots p) o].
Proof. intros p o. unfold roots. rewrite fold_left_app. reflexivity. Qed.
Lemma careful_prefix : forall a b, careful (a ++ b) -> careful a.
Proof. intros a b H before o after x -> T. apply (H before o (after ++ b) x); [rewrite <- app_assoc; reflexivity|exact T]. Qed.
Lemma careful_last : forall a o x, careful (a ++ [o]) -> target o = Some x -> nth x (borrowed a) false = false.
Proof. intros a o x H T. exact (H a o [] x eq_refl T). Qed.
Lemma careful_assoc : forall a o b, careful (a ++ o :: b) -> careful ((a ++ [o]) ++ b).
Proof. intros a o b H. rewrite <- app_assoc. exact H. Qed.
Lemma env_step : forall st o, exists r, st_env (step st o) = st_env st ++ [r].
Proof. intros st o. unfold step. destruct (exec st o) as [[h r]|e]; cbn [st_env]; eexists; reflexivity. Qed.
Lemma env_run : forall prog, length (st_env (run empty_state prog)) = length prog.
Proof. induction prog as [|o p IH] using rev_ind; [reflexivity|]. rewrite run_snoc. destruct (env_step (run empty_state p) o) as (r & ->). rewrite !app_length, IH. reflexivity. Qed.
Lemma var_step : forall st o x l, var st x = Some l -> var (step st o) x = Some l.
Proof. intros st o x l V. destruct (env_step st o) as (r & E). pose proof (var_lt _ _ _ V) as L. unfold var in *. rewrite E, nth_error_app1 by exact L. exact V. Qed.
Lemma inv_empty : inv [] [] empty_state [].
Proof.
  assert (V : forall x l, var empty_state x <> Some l) by (intros x l; unfold var; destruct x; discriminate).
  constructor; auto; try (intros; exfalso; eapply V; eassumption).
  - split; [reflexivity|]. split; intros L x; [intros t|]; unfold shape_at, list_at; cbn [empty_state st_heap]; destruct L; discriminate.
  - cbn. intros; lia.
Qed.
Lemma reach : forall prog, careful prog -> exists tags, inv (borrowed prog) (roots prog) (run empty_state prog) tags.
Proof.
  induction prog as [|o p IH] using rev_ind; intros C; [exists []; exact inv_empty|]. destruct (IH (careful_prefix _ _ C)) as (tags & HI).
  destruct (inv_step _ _ _ _ o HI (fun x => careful_last p o x C)) as (tags' & HI' & _). exists tags'. rewrite run_snoc, borrowed_snoc, roots_snoc. exact HI'.
Qed.
Lemma calls_snoc : forall p st o x, calls st (p ++ [o]) x = calls st p x ++ call (run st p) o x.
Proof. induction p as [|q p IH]; intros st o x; cbn [calls app]; [apply app_nil_r|]. rewrite IH, app_assoc. reflexivity. Qed.
Lemma later : forall before after tags, careful (before ++ after) -> inv (borrowed before) (roots before) (run empty_state before) tags ->
  let st := run empty_state before in let st' := run empty_state (before ++ after) in
  exists tags', inv (borrowed (before ++ after)) (roots (before ++ after)) st' tags' /\ grows tags tags' /\ ext (st_heap st) (st_heap st') /\
    (forall l L, nth_error tags l = Some (Part L RStored) -> nth_error (st_heap st') l = nth_error (st_heap st) l) /\
    (forall x l, var st x = Some l -> var st' x = Some l) /\
    (forall x L y v, var st x = Some L -> list_at (st_heap st) L = Some y -> view (st_heap st) y = Some v ->
       exists y', list_at (st_heap st') L = Some y' /\ view (st_heap st') y' = Some (sl_history v (calls st after x)) /\ h_dpos y' = h_dpos y /\ h_dneg y' = h_dneg y).
Proof.
  intros before after tags. induction after as [|o p IH] using rev_ind; intros C HI st st'.
  - assert (E : st' = st) by (unfold st', st; rewrite app_nil_r; reflexivity). rewrite E. exists tags. rewrite app_nil_r. split; [exact HI|]. split; [intros l t H; exact H|]. split; [apply ext_refl|]. split; [auto|]. split; [auto|]. intros x L y v V Ey Ev. exists y. auto.
  - rewrite app_assoc in C. destruct (IH (careful_prefix _ _ C) HI) as (tags1 & HI1 & G1 & X1 & S1 & V1 & L1). set (st1 := run empty_state (before ++ p)) in *.
    assert (E : st' = step st1 o) by (unfold st', st1; rewrite app_assoc, run_snoc; reflexivity). rewrite E.
    destruct (inv_step _ _ _ _ o HI1 (fun x => careful_last _ o x C)) as (tags2 & HI2 & [X2 G2 _ S2 L2]). exists tags2.
    rewrite app_assoc, borrowed_snoc, roots_snoc. split; [exact HI2|]. split; [intros l t H; auto|]. split; [eapply ext_trans; eauto|].
    split; [intros l L H; rewrite (S2 l L (G1 _ _ H)); apply (S1 l L H)|]. split; [intros x l H; apply var_step, V1; exact H|].
    intros x L y v V Ey Ev. destruct (L1 x L y v V Ey Ev) as (y1 & Ey1 & Ev1 & D1 & D2). destruct (L2 x L y1 _ (V1 _ _ V) Ey1 Ev1) as (y2 & Ey2 & Ev2 & D3 & D4).
    exists y2. split; [exact Ey2|]. split; [|split; congruence]. rewrite calls_snoc. unfold sl_history in *. rewrite fold_left_app. unfold st1 in Ev2 at 2. rewrite run_app in Ev2. exact Ev2.
Qed.
Lemma list_of_view : forall st x v, list_of st x = Some v <-> exists L y, var st x = Some L /\ list_at (st_heap st) L = Some y /\ view (st_heap st) y = Some v.
Proof.
  intros st x v. unfold list_of. split.
  - destruct (var st x) as [L|]; [|discriminate]. destruct (list_at (st_heap st) L) as [y|] eqn:E; [|discriminate]. intros H. exists L, y. auto.
  - intros (L & y & -> & -> & H). exact H.
Qed.
Lemma view_default : forall h y v, view h y = Some v -> bits_at h (h_dpos y) = Some (sl_default_pos v) /\ bits_at h (h_dneg y) = Some (sl_default_neg v).
Proof.
  intros h y v E. unfold view in E. destruct (bits_at h (h_dpos y)) as [dp|]; [|discriminate]. destruct (bits_at h (h_dneg y)) as [dn|]; [|discriminate]. destruct (all_some (subgroup_value h) (h_subs y)); [|discriminate].
  destruct (all_some (bits_at h) (h_pos y)); [|discriminate]. destruct (all_some (bits_at h) (h_neg y)); [|discriminate]. destruct (all_some (bits_at h) (h_opos y)); [|discriminate]. destruct (all_some (bits_at h) (h_oneg y)); [|discriminate].
  injection E as <-. auto.
Qed.
Lemma description_ploc : forall st x p, description_of st x = Some p <-> exists l d, var st x = Some l /\ ploc (st_heap st) l = Some d /\ pat_at (st_heap st) d = Some p.
Proof.
  intros st x p. unfold description_of, ploc, shape_at. destruct (var st x) as [l|]; [|split; [discriminate|intros (? & ? & ? & _); discriminate]].
  destruct (nth_error (st_heap st) l) as [[q|d t|b|y]|] eqn:E; cbn [option_map shape_of]; split.
  - intros [= <-]. exists l, l. unfold pat_at. rewrite !E. auto.
  - intros (l' & d' & [= <-] & G & H). rewrite E in G. injection G as <-. unfold pat_at in H. rewrite E in H. exact H.
  - intros H. exists l, d. rewrite E. auto.
  - intros (l' & d' & [= <-] & G & H). rewrite E in G. injection G as <-. exact H.
  - discriminate.
  - intros (? & ? & [= <-] & H & _). rewrite E in H. discriminate.
  - discriminate.
  - intros (? & ? & [= <-] & H & _). rewrite E in H. discriminate.
  - discriminate.
  - intros (? & ? & [= <-] & H & _). rewrite E in H. discriminate.
Qed.
Lemma run_new : forall prog o h l, exec (run empty_state prog) o = Ok (h, Some l) -> let st' := run empty_state (prog ++ [o]) in st_heap st' = h /\ var st' (length prog) = Some l.
Proof.
  intros prog o h l E st'. unfold st'. rewrite run_snoc. unfold step. rewrite E. cbn [st_heap]. split; [reflexivity|]. unfold var. cbn [st_env]. rewrite <- (env_run prog), nth_app_new. reflexivity.
Qed.
