(** Specification of the quality measures: published formulas, needed parameters, ranges. *)
From Verif Require Export QualityModel.
Open Scope Q_scope.

(** The dictionary describes the contingency table (tp, fp, TP, FP). *)
Definition describes (d : params) (tp fp TP FP : Q) : Prop :=
  lookup d "tp" = Some tp /\ lookup d "fp" = Some fp /\ lookup d "TP" = Some TP /\ lookup d "FP" = Some FP.
Definition consistent (tp fp TP FP : Q) : Prop := 0 <= tp <= TP /\ 0 <= fp <= FP.
(** The keys that a measure needs. *)
Definition needed (m : measure) : list string :=
  match m with
  | PPV => ["tp"; "fp"] | Sensitivity => ["tp"; "TP"] | Specificity => ["fp"; "FP"]
  | Support | PSOptimisticEstimate2 => ["tp"; "TP"; "FP"]
  | F1Score => ["tp"; "fp"; "TP"] | IRR => ["tp"; "fp"; "FP"] | Qg => ["tp"; "fp"; "g"]
  | _ => ["tp"; "fp"; "TP"; "FP"]
  end.
(** The denominators occurring in its definition. *)
Definition denominators (m : measure) (tp fp TP FP g : Q) : list Q :=
  match m with
  | Coverage | Support | PSOptimisticEstimate1 | PSOptimisticEstimate2 => [TP + FP]
  | PPV => [tp + fp] | NPV => [(FP - fp) + (TP - tp)] | Sensitivity => [TP] | Specificity => [FP]
  | F1Score => [(tp + fp) + TP] | IRR => [tp + fp; FP] | Youden => [TP; FP] | Qg => [fp + g]
  | WRAcc | AbsoluteWRAcc | PiatetskyShapiro | WRAccOptimisticEstimate1 => [tp + fp; TP + FP]
  end.
(** The published formulas, with n, N, p, p0, tn, fn as in quality_measure.py:30-43. *)
Definition formula (m : measure) (tp fp TP FP g : Q) : Q :=
  let n := tp + fp in let N := TP + FP in let p := tp / n in let p0 := TP / N in
  let tn := FP - fp in let fn := TP - tp in
  match m with
  | Coverage => n / N
  | Support => tp / N
  | PPV => p
  | NPV => tn / (tn + fn)
  | Sensitivity => tp / TP
  | Specificity => tn / FP
  | F1Score => 2 * tp / (n + TP)
  | IRR => p - (1 - tn / FP)
  | Youden => tp / TP + tn / FP - 1
  | Qg => tp / (fp + g)
  | WRAcc => n / N * (p - p0)
  | AbsoluteWRAcc => Qabs (n / N * (p - p0))
  | PiatetskyShapiro => n * (p - p0)
  | PSOptimisticEstimate1 => n * (1 - p0)
  | PSOptimisticEstimate2 => tp * (1 - p0)
  | WRAccOptimisticEstimate1 => tp * tp / n * (1 - p0)
  end.
(** Documented ranges ([None]: no finite bound). *)
Definition lower (m : measure) (TP FP : Q) : Q :=
  match m with
  | Youden | IRR => -(1) | WRAcc => -(1 # 4) | PiatetskyShapiro => -((TP + FP) / 4) | _ => 0
  end.
Definition upper (m : measure) (TP FP : Q) : option Q :=
  match m with
  | Coverage | Support | PPV | NPV | Sensitivity | Specificity | F1Score | Youden | IRR => Some 1
  | WRAcc | AbsoluteWRAcc => Some (1 # 4)
  | PiatetskyShapiro => Some ((TP + FP) / 4)
  | _ => None
  end.
Definition value_or (d : params) (k : string) : Q := match lookup d k with Some v => v | None => 0 end.
