(** Model of core/pattern.py, core/subgroup.py and data_structures/subgroup_list.py with object identity: which objects are shared and which
    ones are copied.  SubgroupListModel.v has the same lists as values; Properties_Alias.v relates them. *)
From Verif Require Export SubgroupListSpec.
Open Scope list_scope.
Open Scope nat_scope.

(** A reference to an object: its index in the heap. *)
Notation loc := nat.
(** subgroup_list.py:20 (slots): the object has references to bitarrays and to subgroups. *)
Record hlist := HL { h_dpos : loc; h_dneg : loc; h_dist : nat * nat;
                     h_subs : list loc; h_pos : list loc; h_neg : list loc; h_opos : list loc; h_oneg : list loc }.
(** A Pattern has a list of (immutable) selectors, a Subgroup a reference to its description and a (immutable) target. *)
Inductive obj := OPattern (p : pattern) | OSubgroup (d : loc) (t : selector) | OBits (b : list bool) | OList (l : hlist).
Definition heap := list obj.
Definition pat_at (h : heap) (l : loc) : option pattern := match nth_error h l with Some (OPattern p) => Some p | _ => None end.
Definition sub_at (h : heap) (l : loc) : option (loc * selector) := match nth_error h l with Some (OSubgroup d t) => Some (d, t) | _ => None end.
Definition bits_at (h : heap) (l : loc) : option (list bool) := match nth_error h l with Some (OBits b) => Some b | _ => None end.
Definition list_at (h : heap) (l : loc) : option hlist := match nth_error h l with Some (OList x) => Some x | _ => None end.
Fixpoint set_at {A} (l : list A) (i : nat) (x : A) : list A :=
  match l, i with
  | [], _ => []
  | _ :: l', O => x :: l'
  | y :: l', S i' => y :: set_at l' i' x
  end.
(** A new object. *)
Definition alloc (h : heap) (o : obj) : heap * loc := (h ++ [o], length h).

(** * What a client can write *)
(** The arguments of type [nat] are variables: the k-th operation of a program assigns its result to variable k (None when it returns
    nothing or raises an exception, which the client catches). *)
Inductive bits_field := Positives | Negatives | OriginalPositives | OriginalNegatives.
Inductive op :=
| NewPattern (l : list selector) | AddSelector (x : nat) (s : selector) | RemoveSelector (x : nat) (s : selector) | RemoveIndex (x : nat) (i : Z) | CopyPattern (x : nat)
| NewSubgroup (x : nat) (t : selector) | CopySubgroup (x : nat) | Description (x : nat)
| NewBits (b : list bool) | SetBit (x : nat) (i : nat) (b : bool)
| NewList (xp xn : nat) (n : nat) | AddSubgroup (x g xp xn : nat) | DeleteLast (x : nat)
| GetSubgroup (x : nat) (i : Z) | GetBits (f : bits_field) (x : nat) (i : Z) | DefaultPositives (x : nat) | DefaultNegatives (x : nat).
Record state := ST { st_heap : heap; st_env : list (option loc) }.
Definition empty_state : state := ST [] [].
Definition var (st : state) (x : nat) : option loc := match nth_error (st_env st) x with Some (Some l) => Some l | _ => None end.
(** The object of a variable, of the given kind; [e]: the exception otherwise (AttributeError for a missing method, TypeError for an argument). *)
Definition the {A} (at_ : heap -> loc -> option A) (e : exn) (st : state) (x : nat) : res (loc * A) :=
  match var st x with
  | Some l => match at_ (st_heap st) l with Some a => Ok (l, a) | None => Err e end
  | None => Err e
  end.
Definition get_at {A} (l : list A) (i : Z) : res A :=
  match py_index l i with
  | Some k => match nth_error l k with Some x => Ok x | None => Err IndexError end
  | None => Err IndexError
  end.
Definition field (f : bits_field) (l : hlist) : list loc :=
  match f with Positives => h_pos l | Negatives => h_neg l | OriginalPositives => h_opos l | OriginalNegatives => h_oneg l end.
(** A reference inside an object; the kinds of the objects referred to never change, so that the error cannot occur. *)
Definition follow {A} (at_ : heap -> loc -> option A) (h : heap) (l : loc) : res A := match at_ h l with Some a => Ok a | None => Err AttributeError end.

(** subgroup.py:30-36, copy: a copy of the description. *)
Definition copy_subgroup (h : heap) (l : loc) : res (heap * loc) :=
  do g <- follow sub_at h l;
  do p <- follow pat_at h (fst g);
  let '(h, d) := alloc h (OPattern (pattern_copy p)) in
  Ok (alloc h (OSubgroup d (snd g))).
(** subgroup_list.py:76-111, add_subgroup: [lp], [ln]: the bitarrays passed, [bp], [bn]: their contents. *)
Definition add_subgroup (h : heap) (L : loc) (l : hlist) (g : loc) (bp bn : list bool) : res heap :=
  if negb (snd (h_dist l) =? length bp) then Err ValueError
  else if negb (snd (h_dist l) =? length bn) then Err ValueError
  else
    let '(h, op) := alloc h (OBits bp) in
    let '(h, on) := alloc h (OBits bn) in
    do dp <- follow bits_at h (h_dpos l);
    do dn <- follow bits_at h (h_dneg l);
    let '(h, cp) := alloc h (OBits (bits_and bp dp)) in
    let '(h, cn) := alloc h (OBits (bits_and bn dn)) in
    let h := set_at h (h_dpos l) (OBits (bits_and dp (bits_not (bits_and bp dp)))) in
    let h := set_at h (h_dneg l) (OBits (bits_and dn (bits_not (bits_and bn dn)))) in
    do r <- copy_subgroup h g;
    let '(h, gc) := r in
    Ok (set_at h L (OList (HL (h_dpos l) (h_dneg l) (h_dist l) (h_subs l ++ [gc]) (h_pos l ++ [cp]) (h_neg l ++ [cn]) (h_opos l ++ [op]) (h_oneg l ++ [on])))).
(** subgroup_list.py:113-125, delete_last_subgroup. *)
Definition delete_last (h : heap) (L : loc) (l : hlist) : res heap :=
  if 0 <? length (h_subs l) then
    do lp <- last_elem (h_pos l);
    do ln <- last_elem (h_neg l);
    do p <- follow bits_at h lp;
    do n <- follow bits_at h ln;
    do dp <- follow bits_at h (h_dpos l);
    let h := set_at h (h_dpos l) (OBits (bits_or dp p)) in
    do dn <- follow bits_at h (h_dneg l);
    let h := set_at h (h_dneg l) (OBits (bits_or dn n)) in
    Ok (set_at h L (OList (HL (h_dpos l) (h_dneg l) (h_dist l) (removelast (h_subs l)) (removelast (h_pos l)) (removelast (h_neg l)) (removelast (h_opos l)) (removelast (h_oneg l)))))
  else Ok h.

Definition exec (st : state) (o : op) : res (heap * option loc) :=
  let h := st_heap st in
  let new x := let '(h, l) := alloc h x in Ok (h, Some l) in
  match o with
  (* pattern.py:25-36 *)
  | NewPattern l => new (OPattern (pattern_init l))
  (* pattern.py:38-71: in place. *)
  | AddSelector x s => do p <- the pat_at AttributeError st x; Ok (set_at h (fst p) (OPattern (add_selector (snd p) s)), None)
  | RemoveSelector x s => do p <- the pat_at AttributeError st x; Ok (set_at h (fst p) (OPattern (remove_selector (snd p) s)), None)
  | RemoveIndex x i => do p <- the pat_at AttributeError st x; do q <- remove_by_index (snd p) i; Ok (set_at h (fst p) (OPattern q), None)
  (* pattern.py:82-90 *)
  | CopyPattern x => do p <- the pat_at AttributeError st x; new (OPattern (pattern_copy (snd p)))
  (* subgroup.py:22-28: the description is not copied. *)
  | NewSubgroup x t => do p <- the pat_at TypeError st x; new (OSubgroup (fst p) t)
  | CopySubgroup x => do g <- the sub_at AttributeError st x; do r <- copy_subgroup h (fst g); Ok (fst r, Some (snd r))
  (* subgroup.py:38-39 *)
  | Description x => do g <- the sub_at AttributeError st x; Ok (h, Some (fst (snd g)))
  (* bitarray(...) and b[i] = v, for i >= 0. *)
  | NewBits b => new (OBits b)
  | SetBit x i v => do b <- the bits_at AttributeError st x;
                    if i <? length (snd b) then Ok (set_at h (fst b) (OBits (set_at (snd b) i v)), None) else Err IndexError
  (* subgroup_list.py:22-46: copies of both bitarrays. *)
  | NewList xp xn n =>
      do p <- the bits_at TypeError st xp;
      do q <- the bits_at TypeError st xn;
      if negb (n =? length (snd p)) then Err ValueError
      else if negb (n =? length (snd q)) then Err ValueError
      else
        let '(h, dp) := alloc h (OBits (snd p)) in
        let '(h, dn) := alloc h (OBits (snd q)) in
        let '(h, l) := alloc h (OList (HL dp dn (bits_count (snd p), n) [] [] [] [] [])) in
        Ok (h, Some l)
  | AddSubgroup x g xp xn =>
      do l <- the list_at AttributeError st x;
      do s <- the sub_at TypeError st g;
      do p <- the bits_at TypeError st xp;
      do q <- the bits_at TypeError st xn;
      do h <- add_subgroup h (fst l) (snd l) (fst s) (snd p) (snd q);
      Ok (h, None)
  | DeleteLast x => do l <- the list_at AttributeError st x; do h <- delete_last h (fst l) (snd l); Ok (h, None)
  (* subgroup_list.py:127-158, 48-52: references to the objects of the list. *)
  | GetSubgroup x i => do l <- the list_at AttributeError st x; do g <- get_at (h_subs (snd l)) i; Ok (h, Some g)
  | GetBits f x i => do l <- the list_at AttributeError st x; do b <- get_at (field f (snd l)) i; Ok (h, Some b)
  | DefaultPositives x => do l <- the list_at AttributeError st x; Ok (h, Some (h_dpos (snd l)))
  | DefaultNegatives x => do l <- the list_at AttributeError st x; Ok (h, Some (h_dneg (snd l)))
  end.
(** One operation; an exception leaves the objects as they were. *)
Definition step (st : state) (o : op) : state :=
  match exec st o with
  | Ok (h, r) => ST h (st_env st ++ [r])
  | Err _ => ST (st_heap st) (st_env st ++ [None])
  end.
Definition run (st : state) (prog : list op) : state := fold_left step prog st.

(** * What a client sees *)
(** The selectors of a Pattern or of the description of a Subgroup. *)
Definition description_of (st : state) (x : nat) : option pattern :=
  match var st x with
  | Some l => match nth_error (st_heap st) l with
              | Some (OPattern p) => Some p
              | Some (OSubgroup d _) => pat_at (st_heap st) d
              | _ => None
              end
  | None => None
  end.
Definition bits_of (st : state) (x : nat) : option (list bool) := match var st x with Some l => bits_at (st_heap st) l | None => None end.
Definition subgroup_value (h : heap) (l : loc) : option subgroup :=
  match sub_at h l with
  | Some (d, t) => match pat_at h d with Some p => Some (SG p t) | None => None end
  | None => None
  end.
Definition subgroup_of (st : state) (x : nat) : option subgroup := match var st x with Some l => subgroup_value (st_heap st) l | None => None end.
(** The value of all the elements, if all have one. *)
Fixpoint all_some {A B} (f : A -> option B) (l : list A) : option (list B) :=
  match l with
  | [] => Some []
  | x :: l' => match f x, all_some f l' with Some y, Some r => Some (y :: r) | _, _ => None end
  end.
(** The value of a SubgroupList: what its getters show. *)
Definition list_of (st : state) (x : nat) : option sglist :=
  match var st x with
  | Some L =>
      match list_at (st_heap st) L with
      | Some l =>
          let bits := all_some (bits_at (st_heap st)) in
          match bits_at (st_heap st) (h_dpos l), bits_at (st_heap st) (h_dneg l), all_some (subgroup_value (st_heap st)) (h_subs l),
                bits (h_pos l), bits (h_neg l), bits (h_opos l), bits (h_oneg l) with
          | Some dp, Some dn, Some gs, Some p, Some n, Some op, Some on => Some (SL dp dn (h_dist l) gs p n op on)
          | _, _, _, _, _, _, _ => None
          end
      | None => None
      end
  | None => None
  end.
