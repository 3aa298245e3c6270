(** Counting vocabulary used to state distributions over uniformly random bytes. *)
From Coq Require Import List NArith Bool.
Import ListNotations.
Open Scope N_scope.

(** 0, 1, ..., n-1. *)
Definition all_below (n : N) : list N := map N.of_nat (seq 0 (N.to_nat n)).
(** Number of elements of [l] that satisfy [p]. *)
Definition count {A} (p : A -> bool) (l : list A) : N := N.of_nat (length (filter p l)).
Definition sumN (l : list N) : N := fold_right N.add 0 l.
Definition dist (a b : N) : N := (a - b) + (b - a).

(** For a function [f] from [0,M) to [0,m): 2*m*M times the total variation distance
    between f(uniform) and the uniform distribution on [0,m). *)
Definition tv_2mM (f : N -> N) (M m : N) : N :=
  sumN (map (fun v => dist (m * count (fun x => f x =? v) (all_below M)) M)
            (all_below m)).

(** All lists of [k] numbers below [n]. *)
Fixpoint tuples (k : nat) (n : N) : list (list N) :=
  match k with
  | O => [[]]
  | S k' => flat_map (fun x => map (cons x) (tuples k' n)) (all_below n)
  end.
Fixpoint same_list (a b : list N) : bool :=
  match a, b with
  | [], [] => true
  | x :: a', y :: b' => (x =? y) && same_list a' b'
  | _, _ => false
  end.
(** For a function [f] from a number below [M] and [k] numbers below [W] to a list of [k + 1]
    numbers below [m]: 2 * m^(k+1) * M * W^k times the total variation distance between
    f(uniform) and the uniform distribution on the lists of [k + 1] numbers below [m]. *)
Definition tv_joint (f : N -> list N -> list N) (M W m : N) (k : nat) : N :=
  sumN (map (fun vs => dist (m ^ N.of_nat (S k) *
                             count (fun i => same_list (f (fst i) (snd i)) vs)
                                   (list_prod (all_below M) (tuples k W)))
                            (M * W ^ N.of_nat k))
            (tuples (S k) m)).

(** All lists whose [i]-th number is below the [i]-th bound. *)
Fixpoint mixed_tuples (bounds : list N) : list (list N) :=
  match bounds with
  | [] => [[]]
  | b :: bs => flat_map (fun x => map (cons x) (mixed_tuples bs)) (all_below b)
  end.
Definition productN (l : list N) : N := fold_right N.mul 1 l.
(** 1 * m_1 + 2 * m_2 + ... *)
Fixpoint weighted_from (i : N) (ms : list N) : N :=
  match ms with
  | [] => 0
  | m :: ms' => i * m + weighted_from (i + 1) ms'
  end.
