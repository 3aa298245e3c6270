(** Numbers of calls to OpenSSL. *)
From Coq Require Import List NArith ZArith Bool.
From Verif Require Import Base DpfModel DpfSpec.
Import ListNotations.
Open Scope nat_scope.

Definition total (l : list nat) : nat := fold_right Nat.add 0 l.
(** Calls for [n] blocks, of which up to 64 are encrypted in one call. *)
Definition batches (n : nat) : nat := Nat.div (n + 63) 64.
(** [n] seeds are walked down [levels] levels of the tree: two pseudorandom generators. *)
Definition walk_calls (levels n : nat) : nat := 2 * levels * batches n.
(** All descendants of [n] seeds are computed for [levels] levels. *)
Definition expand_calls (levels n : nat) : nat := total (map (fun i => 2 * batches (n * 2 ^ i)) (seq 0 levels)).
(** The tree level of hierarchy level [h], and the number of blocks of its values. *)
Definition tree_level_of (d : dpf) (h : nat) : nat := nth h (d_h2t d) 0.
Definition blocks_of (d : dpf) (h : nat) : nat := nth h (d_blocks d) 0.

(** Two random seeds, two generators for both seeds on every level of the tree, and the values of both seeds on every hierarchy level. *)
Definition key_calls (d : dpf) (hierarchy : nat) : nat :=
  2 + 2 * tree_level_of d (hierarchy - 1) + total (map (fun h => batches (2 * blocks_of d h)) (seq 0 hierarchy)).
(** Evaluation of [n] points of level [h] with nodes of tree level [start]. *)
Definition at_calls (d : dpf) (start h n : nat) : nat :=
  walk_calls (tree_level_of d h - start) n + batches (n * blocks_of d h).
(** Expansion of [n] nodes of tree level [start] to level [h]. *)
Definition full_calls (d : dpf) (start h n : nat) : nat :=
  expand_calls (tree_level_of d h - start) n + batches (n * 2 ^ (tree_level_of d h - start) * blocks_of d h).
(** Evaluation of one point with each of [n] keys at all of the hierarchy levels. *)
Definition apply_calls (d : dpf) (hierarchy n : nat) : nat :=
  walk_calls (tree_level_of d (hierarchy - 1)) n + total (map (fun h => batches (n * blocks_of d h)) (seq 0 hierarchy)).

(** [m] makes [k] calls whenever it succeeds. *)
Definition makes_calls {A} (m : nat -> res A * nat) (k : nat) : Prop :=
  forall n a n', m n = (Ok a, n') -> n' = n + k.
Definition makes_calls_ctx {A} (m : nat -> (res A * ectx) * nat) (k : nat) : Prop :=
  forall n a c n', m n = (Ok a, c, n') -> n' = n + k.

(** The tree level of the nodes from which an evaluation at level [h] starts, if level [q] is stored in the context. *)
Definition stored_level (d : dpf) (stored : option (nat * list N)) (h : nat) : nat :=
  match stored with
  | Some (q, _) => if Nat.leb (tree_level_of d q) (tree_level_of d h) then tree_level_of d q else 0
  | None => 0
  end.
(** The number of nodes of the tree that contain the elements [prefixes] of level [q]. *)
Definition nodes_of (ps : list param) (d : dpf) (q : nat) (prefixes : list N) : nat :=
  length (nodup N.eq_dec (map (fun p => (p / 2 ^ (level_ld ps q - N.of_nat (tree_level_of d q)))%N) prefixes)).
(** EvaluateUntil after a call for level [prev]. *)
Definition until_calls (ps : list param) (d : dpf) (prev : option nat) (stored : option (nat * list N)) (h : nat) (prefixes : list N) : nat :=
  match prev with
  | None => full_calls d 0 h 1
  | Some q => walk_calls (tree_level_of d q - stored_level d stored q) (nodes_of ps d q prefixes)
              + full_calls d (tree_level_of d q) h (nodes_of ps d q prefixes)
  end.
