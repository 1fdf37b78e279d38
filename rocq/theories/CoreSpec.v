(** Small specification vocabulary for the core classes, independent of the code's
    algorithms (sorting, bisection, loops). *)
From Verif Require Export CoreModel.
Open Scope list_scope.
Open Scope nat_scope.

(** Selectors on the same attribute with the same operator carry values of the same kind
    (both str, or both numbers). *)
Definition same_kind (s t : selector) : Prop :=
  s_attr s = s_attr t -> s_op s = s_op t -> is_str (s_val s) = is_str (s_val t).
Definition homogeneous (l : list selector) : Prop :=
  forall s t, In s l -> In t l -> same_kind s t.

(** Membership up to Python's [==]. *)
Definition member (s : selector) (l : list selector) : Prop :=
  exists x, In x l /\ sel_eq x s = true.
(** Abstract sets of selectors: lists whose order is irrelevant. *)
Definition memberb (s : selector) (l : list selector) : bool := existsb (fun x => sel_eq x s) l.
Definition set_add (l : list selector) (s : selector) : list selector :=
  if memberb s l then l else s :: l.
Definition set_remove (l : list selector) (s : selector) : list selector :=
  filter (fun x => negb (sel_eq x s)) l.
(** Remove the element having exactly [k] smaller ones. *)
Definition set_remove_kth (l : list selector) (k : nat) : list selector :=
  filter (fun x => negb (length (filter (fun y => sel_lt y x) l) =? k)) l.

(** Client histories on a Pattern object. *)
Inductive pattern_op := OpAdd (s : selector) | OpRemove (s : selector) | OpRemoveIndex (i : Z).
Definition pattern_step (p : pattern) (o : pattern_op) : pattern :=
  match o with
  | OpAdd s => add_selector p s
  | OpRemove s => remove_selector p s
  | OpRemoveIndex i => match remove_by_index p i with Ok p' => p' | Err _ => p end
  end.
Definition pattern_history (l0 : list selector) (ops : list pattern_op) : pattern :=
  fold_left pattern_step ops (pattern_init l0).
(** The element meant by the index [i] of a sequence of [n] elements: 0, 1, ..., n-1 from the first on, -1, -2, ..., -n from the last on. *)
Definition element_number (n : nat) (i : Z) : option nat :=
  if ((0 <=? i) && (i <? Z.of_nat n))%Z%bool then Some (Z.to_nat i)
  else if ((- Z.of_nat n <=? i) && (i <? 0))%Z%bool then Some (n - Z.to_nat (- i)) else None.
(** The same history on a mathematical set. *)
Definition set_step (l : list selector) (o : pattern_op) : list selector :=
  match o with
  | OpAdd s => set_add l s
  | OpRemove s => set_remove l s
  | OpRemoveIndex i => match element_number (length l) i with Some k => set_remove_kth l k | None => l end
  end.
Definition set_history (l0 : list selector) (ops : list pattern_op) : list selector :=
  fold_left set_step ops (fold_left set_add l0 []).
Definition op_selectors (o : pattern_op) : list selector :=
  match o with OpAdd s | OpRemove s => [s] | OpRemoveIndex _ => [] end.

Definition sorted_strictly (l : list selector) : Prop :=
  StronglySorted (fun s t => sel_lt s t = true) l.

(** * Text formats *)
(** Modelled floats are in canonical decimal form (exactly one representation per number). *)
Definition wf_value (v : value) : Prop :=
  match v with VFloat m e => 1 <= e /\ (e = 1 \/ (m mod 10 <> 0)%Z) | _ => True end.
(** [s] can be returned by the Selector constructor. *)
Definition constructible (s : selector) : Prop :=
  mk_selector (s_attr s) (s_op s) (s_val s) = Ok s /\ wf_value (s_val s).
Definition no_space (a : string) : Prop := has_char " " a = false.

(** * The selector pool *)
Inductive pool_event := EvNew (a : string) (o : operator) (v : value) | EvCollect (id : nat).
Definition pool_step (p : pool) (e : pool_event) : pool :=
  match e with
  | EvNew a o v => fst (selector_new p a o v)
  | EvCollect i => selector_collect p i
  end.
(** State of the pool after a history, from the start of the interpreter. *)
Definition pool_after (evs : list pool_event) : pool := fold_left pool_step evs empty_pool.
Definition event_ok (e : pool_event) : Prop :=
  match e with EvNew a o v => no_space a /\ wf_value v | EvCollect _ => True end.

(** Two values of the same Python type. *)
Definition same_type (v w : value) : Prop :=
  match v, w with
  | VStr _, VStr _ | VInt _, VInt _ | VFloat _ _, VFloat _ _ => True
  | _, _ => False
  end.

(** * Mathematical meaning of the operators (C01) *)
From Coq Require Import QArith.
Open Scope nat_scope.
(** Lexicographic order on character codes. *)
Definition str_lt (a b : string) : Prop :=
  exists p, (a = p /\ exists c r, b = p ++ String c r)%string \/
            (exists c d r r', a = p ++ String c r /\ b = p ++ String d r' /\ (N_of_ascii c < N_of_ascii d)%N)%string.
Definition num_value (v : value) : option Q :=
  match v with
  | VStr _ => None
  | VInt z => Some (inject_Z z)
  | VFloat m e => Some (m # Z.to_pos (10 ^ Z.of_nat e))
  end.
Definition comparable (v w : value) : Prop := is_str v = is_str w.
Definition val_eq (v w : value) : Prop :=
  match v, w with
  | VStr a, VStr b => a = b
  | _, _ => match num_value v, num_value w with Some x, Some y => Qeq x y | _, _ => False end
  end.
Definition val_lt (v w : value) : Prop :=
  match v, w with
  | VStr a, VStr b => str_lt a b
  | _, _ => match num_value v, num_value w with Some x, Some y => Qlt x y | _, _ => False end
  end.
Definition holds (o : operator) (v w : value) : Prop :=
  match o with
  | EQUAL => val_eq v w
  | NOT_EQUAL => ~ val_eq v w
  | LESS => val_lt v w
  | GREATER => val_lt w v
  | LESS_OR_EQUAL => val_lt v w \/ val_eq v w
  | GREATER_OR_EQUAL => val_lt w v \/ val_eq v w
  end.
Definition is_order (o : operator) : Prop := o <> EQUAL /\ o <> NOT_EQUAL.

(** * Dataframes *)
Definition wf_df (df : dataframe) : Prop := forall a c, In (a, c) (df_cols df) -> length c = df_n df.
Definition cell (df : dataframe) (i : nat) (a : string) : option value :=
  match col_get (df_cols df) a with Some c => nth_error c i | None => None end.
(** Row [i] satisfies the selector [s]. *)
Definition row_matches (df : dataframe) (i : nat) (s : selector) : Prop :=
  exists v, cell df i (s_attr s) = Some v /\ op_evaluate (s_op s) v (s_val s) = Ok true.
(** The selector can be evaluated on the whole column. *)
Definition evaluable (df : dataframe) (s : selector) : Prop :=
  exists c, col_get (df_cols df) (s_attr s) = Some c /\
            forall v, In v c -> exists b, op_evaluate (s_op s) v (s_val s) = Ok b.
Definition has_column (df : dataframe) (a : string) : Prop := exists c, col_get (df_cols df) a = Some c.
(** Row [i] as the list of its cells, and all the rows. *)
Definition row (df : dataframe) (i : nat) : list (option value) :=
  map (fun c => nth_error (snd c) i) (df_cols df).
Definition rows (df : dataframe) : list (list (option value)) := map (row df) (seq 0 (df_n df)).
Definition row_matchesb (df : dataframe) (i : nat) (s : selector) : bool :=
  match cell df i (s_attr s) with
  | Some v => match op_evaluate (s_op s) v (s_val s) with Ok b => b | Err _ => false end
  | None => false
  end.
(** Number of rows satisfying all of [l]. *)
Definition coverage (df : dataframe) (l : list selector) : nat :=
  length (filter (fun i => forallb (row_matchesb df i) l) (seq 0 (df_n df))).
Definition count_true (m : list bool) : nat := length (filter (fun b => b) m).
(** Selectors that compare equal carry values of the same Python type (no 1 next to 1.0). *)
Definition typed_alike (l : list selector) : Prop :=
  (forall s, In s l -> wf_value (s_val s)) /\
  forall s t, In s l -> In t l -> sel_eq s t = true -> same_type (s_val s) (s_val t).
