(** Specification vocabulary for the vertical lists. *)
From Verif Require Export VerticalModel CoreSpec.
Open Scope list_scope.
Open Scope nat_scope.

(** Ids of the rows of [df] in which all of [l] hold, with / without the target. *)
Definition matches_all (df : dataframe) (l : list selector) (i : nat) : bool := forallb (row_matchesb df i) l.
Definition pos_rows (df : dataframe) (t : selector) (l : list selector) : list nat :=
  filter (fun i => row_matchesb df i t && matches_all df l i) (seq 0 (df_n df)).
Definition neg_rows (df : dataframe) (t : selector) (l : list selector) : list nat :=
  filter (fun i => negb (row_matchesb df i t) && matches_all df l i) (seq 0 (df_n df)).

(** Expressions over vertical lists: constructor calls and joins. *)
Inductive vexpr (V : Type) :=
| VBase (sels : list selector) (tp fp : list nat) (n : nat) (q : V)
| VJoin (a b : vexpr V) (none_if_0 : bool).
Arguments VBase {V} _ _ _ _ _.
Arguments VJoin {V} _ _ _.
(** Joining with None: AttributeError (None.join) or TypeError (argument check). *)
Definition on_some {S V} (join : vlist S V -> vlist S V -> bool -> res (option (vlist S V)))
  (a b : option (vlist S V)) (flag : bool) : res (option (vlist S V)) :=
  match a, b with
  | None, _ => Err AttributeError
  | Some _, None => Err TypeError
  | Some x, Some y => join x y flag
  end.
Fixpoint eval_sets {V} (qf : nat -> nat -> res V) (e : vexpr V) : res (option (vlist (list nat) V)) :=
  match e with
  | VBase sels tp fp n q => do v <- vls_init sels tp fp n q; Ok (Some v)
  | VJoin a b flag => do x <- eval_sets qf a; do y <- eval_sets qf b; on_some (vls_join qf) x y flag
  end.
Fixpoint eval_bits {V} (qf : nat -> nat -> res V) (e : vexpr V) : res (option (vlist (list bool) V)) :=
  match e with
  | VBase sels tp fp n q => do v <- vlb_init sels tp fp n q; Ok (Some v)
  | VJoin a b flag => do x <- eval_bits qf a; do y <- eval_bits qf b; on_some (vlb_join qf) x y flag
  end.
(** Ids passed to the constructor are row numbers. *)
Fixpoint ids_in_range {V} (e : vexpr V) : Prop :=
  match e with
  | VBase _ tp fp n _ => forall i, In i tp \/ In i fp -> i < n
  | VJoin a b _ => ids_in_range a /\ ids_in_range b
  end.
(** What a client sees. *)
Definition observe {S V} (v : vlist S V) : list selector * nat * nat * nat * nat * V :=
  (vl_sels v, vl_tp v, vl_fp v, vl_n v, vl_size v, vl_quality v).
Definition observe_res {S V} (r : res (option (vlist S V))) :=
  match r with Ok (Some v) => Ok (Some (observe v)) | Ok None => Ok None | Err e => Err e end.

(** The base lists of a dataset (vlsd.py builds them this way): one per selector, with the
    rows in which it holds; all the joins follow VLSD's discipline: every selector of the
    second list but its last one already belongs to the first list. *)
Inductive built_on {S V} (df : dataframe) (t : selector) (qf : nat -> nat -> res V)
  (init : list selector -> list nat -> list nat -> nat -> V -> res (vlist S V))
  (join : vlist S V -> vlist S V -> bool -> res (option (vlist S V))) : vlist S V -> Prop :=
| built_base : forall s q v, qf (length (pos_rows df t [s])) (length (neg_rows df t [s])) = Ok q ->
    init [s] (pos_rows df t [s]) (neg_rows df t [s]) (df_n df) q = Ok v ->
    built_on df t qf init join v
| built_join : forall a b flag v, built_on df t qf init join a -> built_on df t qf init join b ->
    incl (removelast (vl_sels b)) (vl_sels a) ->
    join a b flag = Ok (Some v) -> built_on df t qf init join v.
(** [v] describes the rows of its selectors. *)
Definition describes_rows {S V} (df : dataframe) (t : selector) (qf : nat -> nat -> res V) (v : vlist S V) : Prop :=
  vl_tp v = length (pos_rows df t (vl_sels v)) /\
  vl_fp v = length (neg_rows df t (vl_sels v)) /\
  vl_n v = coverage df (vl_sels v) /\
  vl_size v = df_n df /\
  qf (vl_tp v) (vl_fp v) = Ok (vl_quality v).
