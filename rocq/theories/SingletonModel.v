(** The classes of quality measures and credibility measures as Python objects: every class has a method [__new__] that keeps the
    instance in an attribute of the class.  A client may build instances in any order, copy them, ask for the dictionaries of the
    optimistic estimates, and define subclasses.  [__slots__ = ()] in all the classes, so the objects have no state of their own. *)
From Verif Require Export ConstructorModel.
Open Scope string_scope.
Open Scope list_scope.
Open Scope nat_scope.

(** The classes of the package; the credibility measures are those of credibility_measures/__init__.py. *)
Inductive cred := OddsRatioGLM | OddsRatioStatistic | PValueGLM | PValueIndependence | SelectorContribution.
Inductive lib := QM (s : shipped) | CM (c : cred).
(** [QualityBase], [CredBase]: the abstract classes (quality_measure.py:14, credibility_measure.py:14).  [Sub n name parent]: the n-th class
    of the client, a subclass of [parent] without [__new__] and with all the abstract methods; [name] is what its [get_name] returns
    ([None]: inherited). *)
Inductive cls := QualityBase | CredBase | Lib (l : lib) | Sub (n : nat) (name : option string) (parent : cls).

(** [get_name()]: see measure_name in ConstructorModel.v; odds_ratio_glm.py:49-52, odds_ratio_stat.py:71-74, p_value_glm.py:48-51,
    p_value_independence.py:62-65, selector_contribution.py:123-126. *)
Definition lib_name (l : lib) : string :=
  match l with
  | QM s => mo_name (shipped_obj s)
  | CM OddsRatioGLM => "OddsRatioGLM" | CM OddsRatioStatistic => "OddsRatioStatistic" | CM PValueGLM => "PValueGLM"
  | CM PValueIndependence => "PValueIndependence" | CM SelectorContribution => "SelectorContribution"
  end.
Fixpoint get_name (c : cls) : res string :=
  match c with
  | QualityBase | CredBase => Err Unmodelled (* abstract: NotImplementedError, quality_measure.py:60; no instance reaches it *)
  | Lib l => Ok (lib_name l)
  | Sub _ (Some s) _ => Ok s
  | Sub _ None p => get_name p
  end.

(** The attribute [_singleton] that the method [__new__] of a class reads and writes, as the class that owns it.  quality_measures:
    coverage.py:22-25, support.py:22-25, ppv.py:22-25, npv.py:22-25, sensitivity.py:22-25, specificity.py:22-25, f1_score.py:22-25,
    irr.py:22-25, youden.py:22-25, qg.py:22-25, wracc.py:22-25, absolute_wracc.py:22-25 (a subclass of WRAcc with an attribute of its
    own, line 19), piatetsky_shapiro.py:22-25, piatetsky_shapiro_optimistic_estimate_1.py:23-26, ..._2.py:23-26,
    wracc_optimistic_estimate_1.py:23-26, binomial_test.py:23-26, binomial_test_optimistic_estimate_1.py:24-27; credibility_measures:
    odds_ratio_glm.py:24-27, odds_ratio_stat.py:23-26, p_value_glm.py:23-26, p_value_independence.py:24-27, selector_contribution.py:27-30. *)
Definition slot (l : lib) : lib :=
  match l with
  | QM (Plain Coverage) => QM (Plain Coverage)
  | QM (Plain Support) => QM (Plain Support)
  | QM (Plain PPV) => QM (Plain PPV)
  | QM (Plain NPV) => QM (Plain NPV)
  | QM (Plain Sensitivity) => QM (Plain Sensitivity)
  | QM (Plain Specificity) => QM (Plain Specificity)
  | QM (Plain F1Score) => QM (Plain F1Score)
  | QM (Plain IRR) => QM (Plain IRR)
  | QM (Plain Youden) => QM (Plain Youden)
  | QM (Plain Qg) => QM (Plain Qg)
  | QM (Plain WRAcc) => QM (Plain WRAcc)
  | QM (Plain AbsoluteWRAcc) => QM (Plain AbsoluteWRAcc)
  | QM (Plain PiatetskyShapiro) => QM (Plain PiatetskyShapiro)
  | QM (Plain PSOptimisticEstimate1) => QM (Plain PSOptimisticEstimate1)
  | QM (Plain PSOptimisticEstimate2) => QM (Plain PSOptimisticEstimate2)
  | QM (Plain WRAccOptimisticEstimate1) => QM (Plain WRAccOptimisticEstimate1)
  | QM Binomial => QM Binomial
  | QM BinomialOE1 => QM BinomialOE1
  | CM OddsRatioGLM => CM OddsRatioGLM
  | CM OddsRatioStatistic => CM OddsRatioStatistic
  | CM PValueGLM => CM PValueGLM
  | CM PValueIndependence => CM PValueIndependence
  | CM SelectorContribution => CM SelectorContribution
  end.

(** The classes of the objects that exist (an object is its position), and the attributes [_singleton] that are not None. *)
Record world := World { w_objects : list cls; w_singletons : list (string * nat) }.
Definition start : world := World [] [].
Fixpoint attr_get (k : string) (l : list (string * nat)) : option nat :=
  match l with
  | [] => None
  | (k', o) :: l' => if String.eqb k' k then Some o else attr_get k l'
  end.
(** [object().__new__(cls)]: a new object (abstract classes: TypeError). *)
Definition fresh (w : world) (c : cls) : res nat * world :=
  match c with
  | QualityBase | CredBase => (Err TypeError, w)
  | _ => (Ok (length (w_objects w)), World (w_objects w ++ [c]) (w_singletons w))
  end.
(** The class of the package whose [__new__] a class uses. *)
Fixpoint new_of (c : cls) : option lib :=
  match c with QualityBase | CredBase => None | Lib l => Some l | Sub _ _ p => new_of p end.
(** [c()]: the [__new__] of the package (e.g. wracc.py:22-25), or that of [object]. *)
Definition construct (w : world) (c : cls) : res nat * world :=
  match new_of c with
  | None => fresh w c
  | Some l =>
      match attr_get (lib_name (slot l)) (w_singletons w) with
      | Some o => (Ok o, w)
      | None => match fresh w c with
                | (Ok o, w') => (Ok o, World (w_objects w') ((lib_name (slot l), o) :: w_singletons w'))
                | r => r
                end
      end
  end.
(** [copy.copy(o)], [copy.deepcopy(o)], [pickle.loads(pickle.dumps(o))] in the same process: no class defines [__reduce__] or [__copy__], so
    all of them call [type(o).__new__(type(o))] (protocol 2 and above), and there is no state to restore. *)
Definition copy_obj (w : world) (o : nat) : res nat * world :=
  match nth_error (w_objects w) o with Some c => construct w c | None => (Err Unmodelled, w) end.
(** [o.optimistic_estimate_of()]: [dict({M().get_name() : M()})] for the measure M, or [dict()], e.g. wracc_optimistic_estimate_1.py:55-60; the
    credibility measures have no such method (what a class of the client outside the package returns is not modelled).  [M()] is evaluated twice, first for the key. *)
Definition estimated (s : shipped) : list shipped :=
  match s with Plain m => map Plain (optimistic_estimate_of m) | Binomial => [] | BinomialOE1 => [Binomial] end.
Fixpoint entries (w : world) (l : list shipped) : res (list (string * nat)) * world :=
  match l with
  | [] => (Ok [], w)
  | m :: l' =>
      match construct w (Lib (QM m)) with
      | (Ok o, w1) =>
          match nth_error (w_objects w1) o with
          | Some c => match get_name c with
                      | Ok name => match construct w1 (Lib (QM m)) with
                                   | (Ok o2, w2) => match entries w2 l' with
                                                    | (Ok d, w3) => (Ok ((name, o2) :: d), w3)
                                                    | r => r
                                                    end
                                   | (Err e, w2) => (Err e, w2)
                                   end
                      | Err e => (Err e, w1)
                      end
          | None => (Err Unmodelled, w1)
          end
      | (Err e, w1) => (Err e, w1)
      end
  end.
Definition estimate_of (w : world) (o : nat) : res (list (string * nat)) * world :=
  match nth_error (w_objects w) o with
  | Some c => match new_of c with Some (QM s) => entries w (estimated s) | Some (CM _) => (Err AttributeError, w) | None => (Err Unmodelled, w) end
  | None => (Err Unmodelled, w)
  end.

(** A program of the client, and what each step returns. *)
Inductive action := New (c : cls) | Copy (o : nat) | EstimateOf (o : nat).
Inductive outcome := Obj (o : nat) | Dict (d : list (string * nat)) | Raised (e : exn).
Definition obj_outcome (r : res nat) : outcome := match r with Ok o => Obj o | Err e => Raised e end.
Definition do_action (w : world) (a : action) : outcome * world :=
  match a with
  | New c => let (r, w') := construct w c in (obj_outcome r, w')
  | Copy o => let (r, w') := copy_obj w o in (obj_outcome r, w')
  | EstimateOf o => let (r, w') := estimate_of w o in (match r with Ok d => Dict d | Err e => Raised e end, w')
  end.
Fixpoint run_program (w : world) (l : list action) : list outcome * world :=
  match l with
  | [] => ([], w)
  | a :: l' => let (o, w1) := do_action w a in let (os, w2) := run_program w1 l' in (o :: os, w2)
  end.
