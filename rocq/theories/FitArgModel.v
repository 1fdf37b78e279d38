(** The beginning of [fit] (and of [QFinder.test_subgroups]) for arguments of any Python type: algorithms/subgroup_sets/*.py and
    algorithms/subgroup_lists/*.py, from the first line to the point where the models of the algorithms (SDMapModel.v, ...) start.
    A dataset is a [dataframe] (columns with different names, which are strings; default index); [is_string_dtype(column)] is "all the cells
    are strings" (pandas 2).  Texts of the messages are not modelled. *)
From Verif Require Export SDMapModel.
Open Scope string_scope.
Open Scope list_scope.
Open Scope nat_scope.

(** The argument objects.  [AOther]: an object of any other class, in particular of a subclass of DataFrame, tuple or str. *)
Inductive arg := AStr (s : string) | AInt (z : Z) | AFloat (x : string) | ABool (b : bool) | ANone | ATuple (l : list arg) | AList (l : list arg)
| AFrame (f : dataframe) | AOther (n : nat).
Definition is_frame (a : arg) : bool := match a with AFrame _ => true | _ => false end.
Definition is_tuple (a : arg) : bool := match a with ATuple _ => true | _ => false end.
Definition is_text (a : arg) : bool := match a with AStr _ => true | _ => false end.
Definition is_flag (a : arg) : bool := match a with ABool _ => true | _ => false end.
Definition is_none (a : arg) : bool := match a with ANone => true | _ => false end.
Definition elements (a : arg) : list arg := match a with ATuple l | AList l => l | _ => [] end.
Definition frame (a : arg) : dataframe := match a with AFrame f => f | _ => DF 0 [] end.

(** The state that a refused call could change: the output file (None: it does not exist), whether the object holds it open
    ([self._file]), and the attributes of the object. *)
Record world (S : Type) := World { w_file : option string; w_open : bool; w_obj : S }.
Arguments World {S}. Arguments w_file {S}. Arguments w_open {S}. Arguments w_obj {S}.
Definition fitting (S A : Type) : Type := world S -> world S * res A.
Definition done {S A} (a : A) : fitting S A := fun w => (w, Ok a).
Definition fails {S A} (e : exn) : fitting S A := fun w => (w, Err e).
Definition next {S A B} (m : fitting S A) (k : A -> fitting S B) : fitting S B := fun w => match m w with (w', Ok a) => k a w' | (w', Err e) => (w', Err e) end.
Notation "'act' x <- m ; k" := (next m (fun x => k)) (at level 200, x pattern, m at level 100, k at level 200).
(** [if b: raise e]. *)
Definition refuse {S} (b : bool) (e : exn) : fitting S unit := if b then fails e else done tt.
(** [t[i]] *)
Definition item {S} (t : arg) (i : nat) : fitting S arg := match nth_error (elements t) i with Some x => done x | None => fails IndexError end.
(** [df[x]] for a scalar [x]: the name of the column with its cells. *)
Definition column {S} (f : dataframe) (x : arg) : fitting S (string * list value) :=
  match x with
  | AStr s => match col_get (df_cols f) s with Some c => done (s, c) | None => fails KeyError end
  | AInt _ | AFloat _ | ABool _ | ANone => fails KeyError
  | _ => fails Unmodelled
  end.
(** [x in df.columns] for a scalar [x]. *)
Definition is_column (f : dataframe) (x : arg) : bool := match x with AStr s => match col_get (df_cols f) s with Some _ => true | None => false end | _ => false end.
(** [x in column.unique()] for a column of strings and a scalar [x]. *)
Definition occurs (x : arg) (c : list value) : bool := match x with AStr s => existsb (fun v => py_eq v (VStr s)) c | _ => false end.
(** [open(self._file_path, "w")] if there is a path. *)
Definition open_file {S} (writes : bool) : fitting S unit := fun w => if writes then (World (Some "") true (w_obj w), Ok tt) else (w, Ok tt).

(** The dataset, the name and the value of the target with which the algorithm starts. *)
Record start := Start { st_frame : dataframe; st_column : string; st_value : arg }.

(** sdmap.py:249-258 and, called first, data_structures/fp_tree_for_sdmap.py:112-121, 125 (147): the thresholds were checked by the
    constructor (C66).  sdmapstar.py:358-368 has the same checks and evaluations in the same order. *)
Definition sdmap_checks {S} (df t : arg) : fitting S start :=
  act _ <- refuse (negb (is_frame df)) TypeError;
  act _ <- refuse (negb (is_tuple t)) TypeError;
  act _ <- refuse (negb (all_nominal (frame df))) DatasetAttributeTypeError;
  act x <- item t 0;
  act c <- column (frame df) x;
  act v <- item t 1;
  done (Start (frame df) (fst c) v).
(** vlsd.py:336-349: the output file is opened before the target is used. *)
Definition vlsd_checks {S} (writes : bool) (df t : arg) : fitting S start :=
  act _ <- refuse (negb (is_frame df)) TypeError;
  act _ <- refuse (negb (is_tuple t)) TypeError;
  act _ <- refuse (negb (all_nominal (frame df))) DatasetAttributeTypeError;
  act _ <- open_file writes;
  act x <- item t 0;
  act c <- column (frame df) x;
  act v <- item t 1;
  done (Start (frame df) (fst c) v).
(** bsd.py:409-422 (CBSD and CPBSD inherit it). *)
Definition bsd_checks {S} (df t : arg) : fitting S start :=
  act _ <- refuse (negb (is_frame df)) TypeError;
  act _ <- refuse (negb (is_tuple t)) TypeError;
  act _ <- refuse (negb (length (elements t) =? 2)) ValueError;
  act x <- item t 0;
  act _ <- refuse (negb (is_text x)) ValueError;
  act _ <- refuse (negb (all_nominal (frame df))) DatasetAttributeTypeError;
  act c <- column (frame df) x;
  act v <- item t 1;
  done (Start (frame df) (fst c) v).
(** idsd.py:381-393. *)
Definition idsd_checks {S} (df t : arg) : fitting S start :=
  act _ <- refuse (negb (is_frame df)) TypeError;
  act _ <- refuse (negb (is_tuple t)) TypeError;
  act _ <- refuse (negb (all_nominal (frame df))) DatasetAttributeTypeError;
  act x <- item t 0;
  act _ <- refuse (negb (is_column (frame df) x)) ValueError;
  act v <- item t 1;
  act c <- column (frame df) x;
  act _ <- refuse (negb (occurs v (snd c))) ValueError;
  done (Start (frame df) (fst c) v).
(** qfinder.py:294-304, then _generate_candidate_patterns, qfinder.py:138-151 ([cats] and [max_complexity] were checked by the constructor). *)
Definition qfinder_checks {S} (df t : arg) : fitting S start :=
  act _ <- refuse (negb (is_frame df)) TypeError;
  act _ <- refuse (negb (is_tuple t)) TypeError;
  act _ <- refuse (negb (all_nominal (frame df))) DatasetAttributeTypeError;
  act _ <- refuse (negb (length (elements t) =? 2)) InconsistentMethodParametersError;
  act x <- item t 0;
  act c <- column (frame df) x;
  act _ <- refuse (negb (forallb is_str (snd c))) DatasetAttributeTypeError;
  act v <- item t 1;
  done (Start (frame df) (fst c) v).
(** sdiga.py:543-557. *)
Definition sdiga_checks {S} (df t : arg) : fitting S start :=
  act _ <- refuse (negb (is_frame df)) DatasetAttributeTypeError;
  act _ <- refuse (negb (is_tuple t)) TypeError;
  act _ <- refuse (negb (length (elements t) =? 2)) ValueError;
  act x <- item t 0;
  act v <- item t 1;
  act _ <- refuse (negb (is_text x) || negb (is_text v)) TypeError;
  act _ <- refuse (negb (all_nominal (frame df))) DatasetAttributeTypeError;
  act c <- column (frame df) x;
  act _ <- refuse (negb (occurs v (snd c))) ValueError;
  done (Start (frame df) (fst c) v).
(** gmsl.py:200-213, psld.py:96-109, dslm.py:103-116. *)
Definition list_checks {S} (df t : arg) : fitting S start :=
  act _ <- refuse (negb (is_frame df)) TypeError;
  act _ <- refuse (df_n (frame df) =? 0) ValueError;
  act _ <- refuse (negb (is_tuple t)) TypeError;
  act _ <- refuse (negb (all_nominal (frame df))) DatasetAttributeTypeError;
  act x <- item t 0;
  act c <- column (frame df) x;
  act v <- item t 1;
  done (Start (frame df) (fst c) v).
(** qfinder.py:323-338, test_subgroups; [fitted]: [self._top_patterns] is not None, which is so for every object that the constructor
    makes (qfinder.py:98 sets it to []; see C60_before_fit for what the call does then); bitset_qfinder.py:33. *)
Definition test_checks {S} (fitted : bool) (df t write path : arg) : fitting S start :=
  act _ <- refuse (negb fitted) ValueError;
  act _ <- refuse (negb (is_frame df)) TypeError;
  act _ <- refuse (negb (is_tuple t)) TypeError;
  act _ <- refuse (negb (is_flag write)) TypeError;
  let w := match write with ABool b => b | _ => false end in
  act _ <- (if w && is_none path then fails ValueError else refuse (w && negb (is_text path)) TypeError);
  act x <- item t 0;
  act c <- column (frame df) x;
  act v <- item t 1;
  done (Start (frame df) (fst c) v).
(** The whole call: the rest of the method runs on what the beginning leaves. *)
Definition call {S A} (checks : fitting S start) (rest : start -> fitting S A) : fitting S A := act s <- checks; rest s.
