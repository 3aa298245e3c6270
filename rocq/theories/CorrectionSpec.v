(** Vocabulary for the distribution of value corrections: the layout of the random bytes that values
    are sampled from. *)
From Coq Require Import List NArith Bool.
From Verif Require Import Base ValueTypesModel SampleSpec.
Import ListNotations.
Open Scope N_scope.

Definition is_leaf (t : cty) : bool := match t with TTup _ => false | _ => true end.
(** The types in a possibly nested tuple that are not tuples, from left to right. *)
Fixpoint leaves (t : cty) : list cty := match t with TTup ts => flat_map leaves ts | _ => [t] end.
Definition leaf_width (t : cty) : N := match t with TInt w | TXor w | TMod w _ => w | TTup _ => 0 end.
(** Number of values of the type. *)
Definition leaf_modulus (t : cty) : N := match t with TInt w | TXor w => 2 ^ w | TMod _ m => m | TTup _ => 1 end.
(** Random words of the sizes of the elements, one after the other. *)
Fixpoint mixed_bytes (ts : list cty) (xs : list N) : bytes :=
  match ts, xs with
  | t :: ts', x :: xs' => le_encode (nbytes (leaf_width t)) x ++ mixed_bytes ts' xs'
  | _, _ => []
  end.
(** All values below [M] of a first block, and all values of the words read after it. *)
Definition seed_space (M : N) (t : cty) : list (N * list N) :=
  list_prod (all_below M) (mixed_tuples (map (fun l => 2 ^ leaf_width l) (removelast (leaves t)))).
Definition seed_bytes (t : cty) (i : N * list N) (rest : bytes) : bytes :=
  le_encode 16 (fst i) ++ mixed_bytes (leaves t) (snd i) ++ rest.
(** 1 * m_1 + 2 * m_2 + ... from the first IntModN on. *)
Fixpoint bias_cost (ts : list cty) : N :=
  match ts with
  | [] => 0
  | TMod _ _ :: _ => weighted_from 1 (map leaf_modulus ts)
  | _ :: ts' => bias_cost ts'
  end.
(** Nothing for types that are converted directly. *)
Definition type_bias (t : cty) : N := if is_direct t then 0 else bias_cost (leaves t).

(** The value correction that a party sees whose seed expands to [own], when the other seed expands to
    [other]; [second] says whether the other party is the second one. *)
Definition seen (T : cty) (second : bool) (own other : bytes) (idx : nat) (beta : pvalue) (invert : bool)
  : res (list pvalue) :=
  if second then compute_value_correction_for T own other idx beta invert
  else compute_value_correction_for T other own idx beta invert.

(** All ways to choose one element of each list. *)
Fixpoint choices {A : Type} (ls : list (list A)) : list (list A) :=
  match ls with
  | [] => [[]]
  | l :: ls' => flat_map (fun x => map (cons x) (choices ls')) l
  end.
