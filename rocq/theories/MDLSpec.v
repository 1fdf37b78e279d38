(** Specification for C51: the multinomial stochastic complexity by its definition, and the universal code. *)
From Coq Require Import Reals List Arith.
Import ListNotations.
Open Scope R_scope.

Definition rsum (l : list R) : R := fold_right Rplus 0 l.
Definition rprod (l : list R) : R := fold_right Rmult 1 l.
(** The term of the outcome counts [h] (one number per category) of [n] samples: n! / (h1! ... hL!) * (h1/n)^h1 * ... * (hL/n)^hL. *)
Definition complexity_term (n : nat) (h : list nat) : R :=
  INR (fact n) / rprod (map (fun k => INR (fact k)) h) * rprod (map (fun k => (INR k / INR n) ^ k) h).
(** [c] is the multinomial complexity of [L] categories and [n] samples: the sum of the terms over all the outcome counts. *)
Definition is_complexity (L n : nat) (c : R) : Prop :=
  exists hs : list (list nat), NoDup hs /\ (forall h, In h hs <-> length h = L /\ list_sum h = n) /\
    c = rsum (map (complexity_term n) hs).
(** The iterated logarithms to base 2 of [x]: x, log2 x, log2 (log2 x), ... *)
Fixpoint iterated_log (k : nat) (x : R) : R :=
  match k with
  | O => x
  | S k' => iterated_log k' (ln x / ln 2)
  end.
