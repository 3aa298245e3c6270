(** What the hash tables and hash functions are expected to do, stated without the functions of
    the model. *)
From Coq Require Import List NArith ZArith Bool Permutation.
From Verif Require Import Base.
Import ListNotations.

(** A function that maps every string to a bucket below [n]. *)
Definition hashes_into (n : Z) (f : bytes -> Z -> res Z) : Prop :=
  forall x, exists v, f x n = Ok v /\ (0 <= v < n)%Z.

(** [i] is the bucket that one of the functions assigns to [x]. *)
Definition candidate (fs : list (bytes -> Z -> res Z)) (n : Z) (x : bytes) (i : nat) : Prop :=
  exists f, In f fs /\ f x n = Ok (Z.of_nat i).

(** How many of the functions assign bucket [i] to [x]. *)
Definition hits (fs : list (bytes -> Z -> res Z)) (n : Z) (x : bytes) (i : nat) : nat :=
  length (filter (fun f : bytes -> Z -> res Z =>
                    match f x n with Ok v => Z.eqb v (Z.of_nat i) | _ => false end) fs).

(** The elements of a table with at most one element per bucket. *)
Definition elements (table : list (option bytes)) : list bytes :=
  flat_map (fun slot => match slot with Some e => [e] | None => [] end) table.

(** Outcomes of a sequence of insertions. *)
Definition succeeded (r : res unit) : bool := match r with Ok _ => true | _ => false end.
Definition failures (rs : list (res unit)) : nat := length (filter (fun r => negb (succeeded r)) rs).
Definition accepted (xs : list bytes) (rs : list (res unit)) : list bytes :=
  map fst (filter (fun p => succeeded (snd p)) (combine xs rs)).

(** The number that a string of ASCII digits denotes. *)
Definition decimal (s : bytes) : N :=
  fold_left (fun acc d => acc * 10 + (d - 48))%N s 0%N.
