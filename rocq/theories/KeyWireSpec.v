(** Specification vocabulary for serialized keys and requests: the ranges of the fields of the
    messages, and how deep the messages are nested. *)
From Coq Require Import List NArith ZArith Bool.
From Verif Require Import Base ValueTypesModel DpfModel PirModel.
Import ListNotations.
Open Scope N_scope.

(** * Ranges *)
Definition vinteger_ok (v : vinteger) : Prop :=
  match v with VIUnset => True | VI64 x => x < 2 ^ 64 | VI128 h l => h < 2 ^ 64 /\ l < 2 ^ 64 end.
Fixpoint value_ok (v : pvalue) : Prop :=
  match v with
  | PVUnset => True
  | PVInteger i | PVIntModN i | PVXor i => vinteger_ok i
  | PVTuple els => fold_right (fun e p => value_ok e /\ p) True els
  end.
Definition cword_ok (cw : cword) : Prop := cw_seed cw < 2 ^ 128 /\ Forall value_ok (cw_values cw).
Definition dkey_ok (k : dkey) : Prop :=
  (forall s, k_seed k = Some s -> s < 2 ^ 128) /\ Forall cword_ok (k_cws k) /\
  (- 2 ^ 31 <= k_party k < 2 ^ 31)%Z /\ Forall value_ok (k_last k).
Definition plain_ok (q : plain_request) : Prop := Forall dkey_ok (pq_keys q) /\ pq_fingerprint q < 2 ^ 32.
Definition helper_ok (h : helper_request) : Prop := forall q, hq_plain h = Some q -> plain_ok q.

(** * Nesting: how many messages are around the innermost one, at most *)
Definition deepest {A : Type} (depth : A -> nat) (l : list A) : nat :=
  fold_right (fun x n => Nat.max (S (depth x)) n) 0%nat l.
Definition vinteger_depth (v : vinteger) : nat := match v with VI128 _ _ => 1 | _ => 0 end.
Fixpoint value_depth (v : pvalue) : nat :=
  match v with
  | PVUnset => 0
  | PVInteger i | PVIntModN i | PVXor i => S (vinteger_depth i)
  | PVTuple els => S (deepest value_depth els)
  end.
Definition cword_depth (cw : cword) : nat := Nat.max 1 (deepest value_depth (cw_values cw)).
Definition key_depth (k : dkey) : nat :=
  Nat.max (match k_seed k with Some _ => 1 | None => 0 end) (Nat.max (deepest cword_depth (k_cws k)) (deepest value_depth (k_last k))).
Definition plain_depth (q : plain_request) : nat := deepest key_depth (pq_keys q).
Definition helper_depth (h : helper_request) : nat := match hq_plain h with Some q => S (plain_depth q) | None => 0%nat end.

(** The largest size of a message inside of another. *)
Definition max_size : N := 2 ^ 31 - 17.
