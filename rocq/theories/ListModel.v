(** Model of algorithms/subgroup_lists/gmsl.py, psld.py and dslm.py: the greedy construction of subgroup lists.
    The numeric layer (floating-point logarithms) is a parameter: any type of gains, any functions of the same counts,
    any comparison.  MDLModel.v gives the real-number instance. *)
From Verif Require Export SubgroupListModel FPTreeModel SDMapModel.
From Coq Require Import QArith.
Open Scope list_scope.
Open Scope nat_scope.

Inductive list_class := GMSL | PSLD | DSLM.
(** A candidate: a subgroup with its two bitarrays (three parallel lists in the code, gmsl.py:227). *)
Definition candidate3 := (subgroup * list bool * list bool)%type.
Definition c_group (x : candidate3) : subgroup := fst (fst x).
Definition c_pos (x : candidate3) : list bool := snd (fst x).
Definition c_neg (x : candidate3) : list bool := snd x.
(** gmsl.py:42-59, psld.py:31-37, dslm.py:31-38 (valid parameters) and the numeric functions:
    [lc_data TP FP before after cand]: gmsl.py:94-95, 101-102, 107-118, 122 from the numbers of positive and negative rows of
    the dataset, of the default rule before and after adding the candidate, and of the candidate;
    [lc_model df k p]: gmsl.py:125-143; [lc_gain model data rows]: gmsl.py:252; [lc_penalty gain po no]: dslm.py:169;
    [lc_pos_ok f], [lc_neg_ok f]: the comparisons [f <= maximum_..._overlap] of dslm.py:170 on the exact quotient [f] of dslm.py:71, 95
    (in Python the quotient is rounded before it is compared: Properties_FloatLists.v). *)
Record list_config (G : Type) := LC {
  lc_class : list_class;
  lc_gt : G -> G -> bool; lc_zero : G;
  lc_data : nat -> nat -> nat * nat -> nat * nat -> nat * nat -> G;
  lc_model : dataframe -> nat -> pattern -> res G;
  lc_gain : G -> G -> nat -> G;
  lc_penalty : G -> Q -> Q -> G;
  lc_max_sl : Z; lc_sl_max_size : Z;
  lc_pos_ok : Q -> bool; lc_neg_ok : Q -> bool;
  lc_hash : string -> Z }.
Arguments LC {G}. Arguments lc_class {G}. Arguments lc_gt {G}. Arguments lc_zero {G}. Arguments lc_data {G}.
Arguments lc_model {G}. Arguments lc_gain {G}. Arguments lc_penalty {G}. Arguments lc_max_sl {G}.
Arguments lc_sl_max_size {G}. Arguments lc_pos_ok {G}. Arguments lc_neg_ok {G}. Arguments lc_hash {G}.

Definition nat_Q (n : nat) : Q := inject_Z (Z.of_nat n).
(** dslm.py:61-70: the sum of the counters at the rows of the bitarray (of the same length: SubgroupList.add_subgroup has
    accepted it before, dslm.py:156). *)
Fixpoint counter_sum (bits : list bool) (counter : list nat) : nat :=
  match bits, counter with
  | b :: bits', c :: counter' => (if b then c else 0) + counter_sum bits' counter'
  | _, _ => 0
  end.
Definition overlap_ratio (bits : list bool) (counter : list nat) : Q :=
  if list_sum counter =? 0 then 0%Q else (nat_Q (counter_sum bits counter) / nat_Q (list_sum counter))%Q.
(** dslm.py:50-71. *)
Definition positive_overlap (pos : list bool) (counter : list nat) : Q :=
  if bits_count pos =? 0 then 1%Q else overlap_ratio pos counter.
(** dslm.py:73-95. *)
Definition negative_overlap (neg : list bool) (counter : list nat) : Q :=
  if bits_count neg =? 0 then 0%Q else overlap_ratio neg counter.
(** dslm.py:175-180. *)
Fixpoint counter_add (bits : list bool) (counter : list nat) : list nat :=
  match bits, counter with
  | b :: bits', c :: counter' => (if b then S c else c) :: counter_add bits' counter'
  | _, _ => counter
  end.

Section Learner.
  Context {G : Type} (c : list_config G) (df : dataframe).
  (** gmsl.py:79-122, psld.py:45-88: the candidate is added to the list and removed again.  The list afterwards, the gain and
      the numbers of positive and negative rows of the candidate. *)
  Definition delta_data (l : sglist) (x : candidate3) : res (sglist * G * nat * nat) :=
    let before := (bits_count (sl_default_pos l), bits_count (sl_default_neg l)) in
    do l1 <- sl_add l (c_group x) (c_pos x) (c_neg x);
    let after := (bits_count (sl_default_pos l1), bits_count (sl_default_neg l1)) in
    do p <- sl_get sl_pos l1 (-1);
    do n <- sl_get sl_neg l1 (-1);
    let cand := (bits_count p, bits_count n) in
    let d := lc_data c (sl_number_of_positives l) (sl_number_of_negatives l) before after cand in
    do l2 <- sl_delete_last l1;
    Ok (l2, d, bits_count p, bits_count n).
  (** gmsl.py:247-253, psld.py:143-150, dslm.py:156-170: the gain of a candidate and whether the other conditions hold. *)
  Definition evaluate (pc nc : list nat) (l : sglist) (x : candidate3) : res (sglist * G * bool) :=
    do r <- delta_data l x;
    let '(l2, d, p, n) := r in
    if p + n =? 0 then
      let adm := match lc_class c with
                 | GMSL => true
                 | PSLD => 0 <? p
                 | DSLM => (0 <? p) && lc_pos_ok c 1 && lc_neg_ok c 1
                 end in
      Ok (l2, lc_zero c, adm)
    else
      do m <- lc_model c df (sl_len l2) (g_desc (c_group x));
      let g := lc_gain c m d (p + n) in
      match lc_class c with
      | GMSL => Ok (l2, g, true)
      | PSLD => Ok (l2, g, 0 <? p)
      | DSLM =>
          let po := positive_overlap (c_pos x) pc in
          let no := negative_overlap (c_neg x) nc in
          Ok (l2, lc_penalty c g po no, (0 <? p) && lc_pos_ok c po && lc_neg_ok c no)
      end.
  (** gmsl.py:235-256. *)
  Fixpoint best_loop (pc nc : list nat) (cands : list (option candidate3)) (i : nat) (l : sglist)
    (best : option (nat * candidate3)) (bg : G) : res (sglist * option (nat * candidate3)) :=
    match cands with
    | [] => Ok (l, best)
    | None :: rest => best_loop pc nc rest (S i) l best bg
    | Some x :: rest =>
        do r <- evaluate pc nc l x;
        let '(l', g, adm) := r in
        if lc_gt c g bg && adm then best_loop pc nc rest (S i) l' (Some (i, x)) g
        else best_loop pc nc rest (S i) l' best bg
    end.
  (** gmsl.py:261-263. *)
  Fixpoint set_none (i : nat) (cands : list (option candidate3)) : list (option candidate3) :=
    match cands, i with
    | [], _ => []
    | _ :: rest, O => None :: rest
    | o :: rest, S j => o :: set_none j rest
    end.
  (** gmsl.py:266, psld.py:164. *)
  Definition related (b y : subgroup) : bool :=
    match lc_class c with
    | GMSL => subgroup_is_refinement (lc_hash c) b y false
    | _ => subgroup_is_refinement (lc_hash c) b y false || subgroup_is_refinement (lc_hash c) y b false
    end.
  (** gmsl.py:265-269. *)
  Definition delete_related (b : subgroup) (cands : list (option candidate3)) : list (option candidate3) :=
    map (fun o => match o with Some y => if related b (c_group y) then None else Some y | None => None end) cands.
  (** gmsl.py:233, psld.py:129. *)
  Definition may_grow (l : sglist) : bool :=
    match lc_class c with GMSL => true | _ => (Z.of_nat (sl_len l) <? lc_sl_max_size c)%Z end.
  (** gmsl.py:233-269, psld.py:129-167, dslm.py:140-193: the while loop (fuel: number of iterations). *)
  Fixpoint learn (fuel : nat) (pc nc : list nat) (l : sglist) (cands : list (option candidate3)) :
    res (sglist * list (option candidate3)) :=
    match fuel with
    | O => Err OutOfFuel
    | S f =>
        if may_grow l then
          do r <- best_loop pc nc cands 0 l None (lc_zero c);
          match r with
          | (l', None) => Ok (l', cands)
          | (l', Some (i, x)) =>
              do l2 <- sl_add l' (c_group x) (c_pos x) (c_neg x);
              learn f (counter_add (c_pos x) pc) (counter_add (c_neg x) nc) l2 (delete_related (c_group x) (set_none i cands))
          end
        else Ok (l, cands)
    end.
  (** gmsl.py:229-270: the lists share the candidates; dslm.py:133-138: the counters start again with each list. *)
  Fixpoint learn_lists (n : nat) (ls : list sglist) (cands : list (option candidate3)) : res (list sglist) :=
    match ls with
    | [] => Ok []
    | l :: rest =>
        do r <- learn (S (length cands)) (repeat 0 n) (repeat 0 n) l cands;
        do ms <- learn_lists n rest (snd r);
        Ok (fst r :: ms)
    end.
  (** gmsl.py:200-217, 229-272, psld.py and dslm.py likewise, after the candidates have been loaded. *)
  Definition learner_fit (tcol tval : string) (cands : list candidate3) : res (list sglist) :=
    if df_n df =? 0 then Err ValueError
    else if negb (all_nominal df) then Err DatasetAttributeTypeError
    else
      do mask <- target_mask df tcol (VStr tval);
      do l0 <- sl_init mask (map negb mask) (df_n df);
      learn_lists (df_n df) (repeat l0 (Z.to_nat (lc_max_sl c))) (map Some cands).
End Learner.
