(** Specification of the selection of QFinder. *)
From Verif Require Export QFinderModel Properties_IDSD Properties_Reduce.
From Verif Require Import Properties_Cred.
From Coq Require Import QArith.
Open Scope list_scope.
Open Scope nat_scope.

(** * The candidates *)
(** The values that make selectors: all of them, or the [cats - 1] most frequent ones. *)
Definition most_frequent (cats : Z) (col K : list value) : Prop :=
  NoDup K /\ incl K col /\
  (forall n, number_of_values col n -> cats = (-1)%Z \/ (Z.of_nat n <= cats)%Z -> incl col K) /\
  (forall n, number_of_values col n -> cats <> (-1)%Z -> (cats < Z.of_nat n)%Z ->
     length K = Z.to_nat (cats - 1) /\ forall x y, In x K -> In y col -> ~ In y K -> occurrences col y <= occurrences col x).
(** The patterns that must be evaluated: conjunctions of kept values of the columns other than the target, with some row and not too long
    (the patterns of one selector are always evaluated; -1: no limit). *)
Definition is_qcandidate (c : qconfig) (D : dataframe) (tcol : string) (kept : string -> list value) (X : list selector) : Prop :=
  description D tcol X /\ 1 <= coverage D X /\ (q_max c = (-1)%Z \/ length X <= 1 \/ (Z.of_nat (length X) <= q_max c)%Z) /\
  forall s, In s X -> In (s_val s) (kept (s_attr s)).
(** The text of a pattern can be read back. *)
Definition readable (D : dataframe) (tcol : string) : Prop :=
  forall a col x, In (a, col) (df_cols D) -> a <> tcol -> In x col -> constructible (Sel a EQUAL x) /\ no_space a /\ contains ", " (sel_str (Sel a EQUAL x)) = false.

(** * The selection *)
(** The six credibility criteria. *)
Definition criterion (c : qconfig) (r : qcred) (k : nat) : Prop :=
  match k with
  | 1 => xle (XFin (q_cov c)) (qc_cov r) = true      (* coverage at least the threshold *)
  | 2 => xle (XFin (q_or c)) (qc_or r) = true        (* odds ratio at least the threshold *)
  | 3 => xle (qc_p r) (XFin (q_p c)) = true          (* p-value at most the threshold *)
  | 4 => xle (XFin (q_abs c)) (qc_abs r) = true      (* absolute contribution at least the threshold *)
  | 5 => xle (qc_ratio r) (XFin (q_ratio c)) = true  (* contribution ratio at most the threshold *)
  | 6 => xle (qc_adj r) (XFin (q_p c)) = true        (* adjusted p-value at most the threshold *)
  | _ => False
  end.
(** A rank is reached when its criterion and those of the lower ranks, except the fourth, hold. *)
Definition reaches (c : qconfig) (r : qcred) (k : nat) : Prop := criterion c r k /\ forall j, 1 <= j < k -> j <> 4 -> criterion c r j.

(** An odds ratio increased by delta (infinity and nan stay). *)
Definition raised (a : xnum) (d : Q) : xnum := match a with XFin q => XFin (q + d) | other => other end.
Section SelectSpec.
  Variable c : qconfig.
  Variable cands : list qentry.
  (** Why a candidate is not in the list. *)
  (** A more general candidate is as good, up to delta. *)
  Definition stopped (Y : qentry) : Prop := exists X, In X cands /\ nested (fst X) (fst Y) /\ length (fst X) < length (fst Y) /\ xle (qo Y) (raised (qo X) (q_delta c)) = true.
  (** A more special candidate has a better odds ratio and a better p-value. *)
  Definition replaced (Y : qentry) : Prop := exists Z, In Z cands /\ nested (fst Y) (fst Z) /\ length (fst Y) < length (fst Z) /\ xlt (raised (qo Y) (q_delta c)) (qo Z) = true /\ xlt (qp Z) (qp Y) = true.
  (** As many candidates as subgroups are asked for have a p-value that is not greater. *)
  Definition outnumbered (Y : qentry) : Prop := exists l, NoDup l /\ incl l cands /\ ~ In Y l /\ Z.of_nat (length l) = q_num c /\ forall e, In e l -> xle (qp e) (qp Y) = true.
  (** A candidate of the same length and of a higher rank was worse (in terms of p-value) than as many candidates as subgroups are asked for. *)
  Definition abandoned (Y : qentry) : Prop := exists x l, In x cands /\ length (fst x) = length (fst Y) /\ q_rank c (snd Y) < q_rank c (snd x) /\
    NoDup l /\ incl l cands /\ Z.of_nat (length l) = q_num c /\ forall e, In e l -> xlt (qp e) (qp x) = true.
  Definition reason (Y : qentry) : Prop := stopped Y \/ replaced Y \/ outnumbered Y \/ abandoned Y.
  (** The relation between an entry of the result and the ones after it. *)
  Definition before_ok (X Y : qentry) : Prop := nested (fst X) (fst Y) -> length (fst X) < length (fst Y) /\ xle (qo Y) (raised (qo X) (q_delta c)) = false.
  Definition list_ok (top : list qentry) : Prop := incl top cands /\ NoDup (map fst top) /\ (Z.of_nat (length top) <= q_num c)%Z /\ StronglySorted before_ok top.
End SelectSpec.
