(** Specification vocabulary for the subgroup-list learners: which candidates are available, what they cover, what they gain. *)
From Verif Require Export ListModel SubgroupListSpec.
From Coq Require Import QArith.
Open Scope list_scope.
Open Scope nat_scope.

Section Spec.
  Context {G : Type} (c : list_config G) (df : dataframe).
  (** [tgt]: the rows of the target; [xs]: the candidates. *)
  Variables (tgt : list bool) (xs : list candidate3).
  Notation rows := (seq 0 (df_n df)).
  (** Rows of the target (not of the target) that no member of the list [st] covers. *)
  Definition free_pos (st : list candidate3) (i : nat) : bool := bit tgt i && forallb (fun y => negb (bit (c_pos y) i)) st.
  Definition free_neg (st : list candidate3) (i : nat) : bool := negb (bit tgt i) && forallb (fun y => negb (bit (c_neg y) i)) st.
  (** Numbers of rows left to the default rule. *)
  Definition default_rows (st : list candidate3) : nat * nat :=
    (length (filter (free_pos st) rows), length (filter (free_neg st) rows)).
  (** Numbers of rows that [x] would cover at the end of the list. *)
  Definition own_rows (st : list candidate3) (x : candidate3) : nat * nat :=
    (length (filter (fun i => free_pos st i && bit (c_pos x) i) rows), length (filter (fun i => free_neg st i && bit (c_neg x) i) rows)).
  (** How many members of the list cover the row. *)
  Definition times_pos (st : list candidate3) (i : nat) : nat := length (filter (fun y => bit (c_pos y) i) st).
  Definition times_neg (st : list candidate3) (i : nat) : nat := length (filter (fun y => bit (c_neg y) i) st).
  (** Overlap factors: the part of the coverage of the members of the list that falls on the rows of [x]. *)
  Definition ratio (a b : nat) : Q := if b =? 0 then 0%Q else (nat_Q a / nat_Q b)%Q.
  Definition overlap_pos (st : list candidate3) (x : candidate3) : Q :=
    if existsb (bit (c_pos x)) rows then ratio (list_sum (map (times_pos st) (filter (bit (c_pos x)) rows))) (list_sum (map (times_pos st) rows))
    else 1%Q.
  Definition overlap_neg (st : list candidate3) (x : candidate3) : Q :=
    if existsb (bit (c_neg x)) rows then ratio (list_sum (map (times_neg st) (filter (bit (c_neg x)) rows))) (list_sum (map (times_neg st) rows))
    else 0%Q.
  (** The gain of [x] at the end of the list [st] is [g]. *)
  Definition gain_is (st : list candidate3) (x : candidate3) (g : G) : Prop :=
    let own := own_rows st x in
    if fst own + snd own =? 0 then g = lc_zero c
    else exists m, lc_model c df (length st) (g_desc (c_group x)) = Ok m /\
      let d := lc_data c (length (filter (bit tgt) rows)) (length (filter (fun i => negb (bit tgt i)) rows))
                 (default_rows st) (default_rows (st ++ [x])) own in
      let v := lc_gain c m d (fst own + snd own) in
      g = match lc_class c with DSLM => lc_penalty c v (overlap_pos st x) (overlap_neg st x) | _ => v end.
  (** The conditions on a candidate other than its gain (dslm.py:160-161: a candidate without rows counts as overlapping fully). *)
  Definition admissible (st : list candidate3) (x : candidate3) : Prop :=
    match lc_class c with
    | GMSL => True
    | PSLD => 0 < fst (own_rows st x)
    | DSLM => 0 < fst (own_rows st x) /\ lc_pos_ok c (overlap_pos st x) = true /\ lc_neg_ok c (overlap_neg st x) = true
    end.
  (** Candidates by position in the input. *)
  Definition cand (a : nat) : candidate3 := nth a xs (SG [] (Sel "" EQUAL (VStr "")), [], []).
  (** The candidate is still there when the candidates [chosen] have been used: it is not one of them and it was not deleted
      because of one of them. *)
  Definition available (chosen : list nat) (a : nat) : Prop :=
    a < length xs /\ ~ In a chosen /\ forall b, In b chosen -> related c (c_group (cand b)) (c_group (cand a)) = false.
  (** [a] is a best choice: [prior] are the candidates used so far, [st] the members of the list. *)
  Definition best_choice (prior : list nat) (st : list candidate3) (a : nat) : Prop :=
    available prior a /\ admissible st (cand a) /\
    exists g, gain_is st (cand a) g /\ lc_gt c g (lc_zero c) = true /\
      forall b g', available prior b -> admissible st (cand b) -> gain_is st (cand b) g' -> lc_gt c g' g = false.
  (** Nothing can be added. *)
  Definition no_choice (prior : list nat) (st : list candidate3) : Prop :=
    forall b g, available prior b -> admissible st (cand b) -> gain_is st (cand b) g -> lc_gt c g (lc_zero c) = false.
  (** Every other available admissible candidate that comes earlier has a smaller gain. *)
  Definition first_choice (prior : list nat) (st : list candidate3) (a : nat) : Prop :=
    forall b g g', b < a -> available prior b -> admissible st (cand b) -> gain_is st (cand b) g -> gain_is st (cand a) g' -> lc_gt c g' g = true.
  (** The list may have one more member. *)
  Definition room (k : nat) : Prop := match lc_class c with GMSL => True | _ => (Z.of_nat k < lc_sl_max_size c)%Z end.
  (** [r] are the candidates of one list, in order, when [prior] have been used by the earlier lists. *)
  Definition list_run (prior r : list nat) : Prop :=
    (forall k a, nth_error r k = Some a ->
       room k /\ best_choice (prior ++ firstn k r) (map cand (firstn k r)) a) /\
    (room (length r) -> no_choice (prior ++ r) (map cand r)).
End Spec.
(** A comparison of gains: a strict order ([nan] is comparable with nothing); total up to ties in the second definition. *)
Definition strict_order {G} (gt : G -> G -> bool) : Prop :=
  (forall x, gt x x = false) /\ (forall x y z, gt x y = true -> gt y z = true -> gt x z = true).
Definition total_order {G} (gt : G -> G -> bool) : Prop :=
  strict_order gt /\ (forall x y z, gt x z = true -> gt x y = true \/ gt y z = true).
