(** Specification for the serialization of evaluation contexts. *)
From Coq Require Import List NArith ZArith Bool.
From Verif Require Import Base ValueTypesModel ValueTypesSpec DpfModel DpfSpec KeyWireSpec.
Import ListNotations.
Open Scope N_scope.

Definition int32_ok (z : Z) : Prop := (- 2 ^ 31 <= z < 2 ^ 31)%Z.
(** ** Fields in the ranges of their C++ types *)
Fixpoint type_ok (t : ptype) : Prop :=
  match t with
  | PTUnset => True
  | PTInteger b | PTXor b => int32_ok b
  | PTTuple els => fold_right (fun e P => type_ok e /\ P) True els
  | PTIntModN b v => int32_ok b /\ vinteger_ok v
  end.
(** [x] is a double with the 64 bits [dbits x]. *)
Definition double_ok (dbits : dbl -> N) (dval : N -> dbl) (x : dbl) : Prop := dbits x < 2 ^ 64 /\ dval (dbits x) = x.
Definition param_ok (p : param) : Prop := int32_ok (p_ld p) /\ (forall t, p_vt p = Some t -> type_ok t).
Definition partial_ok (e : partial) : Prop := pe_prefix e < 2 ^ 128 /\ pe_seed e < 2 ^ 128.
Record context_ok (dbits : dbl -> N) (dval : N -> dbl) (c : ectx) : Prop := {
  ok_params : Forall (fun p => param_ok p /\ double_ok dbits dval (p_sec p)) (c_params c);
  ok_key : forall k, c_key c = Some k -> dkey_ok k;
  ok_prev : int32_ok (c_prev c);
  ok_partials : Forall partial_ok (c_partials c);
  ok_plevel : int32_ok (c_plevel c)
}.

(** ** How deep the messages are nested *)
Fixpoint ptype_depth (t : ptype) : nat :=
  match t with
  | PTUnset => 0
  | PTInteger _ | PTXor _ => 1
  | PTTuple els => S (deepest ptype_depth els)
  | PTIntModN _ v => S (S (vinteger_depth v))
  end.
Definition param_depth (p : param) : nat := match p_vt p with Some t => S (ptype_depth t) | None => 0 end.
Definition partial_depth (e : partial) : nat := 1.
Definition context_depth (c : ectx) : nat :=
  Nat.max (deepest param_depth (c_params c))
    (Nat.max (match c_key c with Some k => S (key_depth k) | None => 0 end) (deepest partial_depth (c_partials c))).

(** ** Contexts and programs that use them *)

(** A call that takes a context. *)
Inductive call :=
| Until (T : cty) (h : Z) (prefixes : list N)
| At (T : cty) (h : nat) (points : list N).
(** The types of the calls are those of the levels, indices are uint128s. *)
Definition call_ok (ps : list param) (k : call) : Prop :=
  match k with
  | Until T h prefixes => cty_ok T = true /\ Forall (fun p => p < 2 ^ 128) prefixes
  | At T h points => (h < length ps)%nat -> level_has ps h T
  end.
Definition perform (aes : N -> N -> N) (d : dpf) (k : call) (c : ectx) : res (list cval) * ectx :=
  match k with
  | Until T h prefixes => evaluate_until aes d T h prefixes c
  | At T h points => evaluate_at_ctx aes d T (Z.of_nat h) points c
  end.
(** The results of a sequence of calls and the contexts after them, whether or not the calls
    succeed. *)
Fixpoint results (aes : N -> N -> N) (d : dpf) (calls : list call) (c : ectx) : list (res (list cval) * ectx) :=
  match calls with
  | [] => []
  | k :: calls' => perform aes d k c :: results aes d calls' (snd (perform aes d k c))
  end.
(** The same where the context is stored as bytes between any two calls; None if it cannot be read back. *)
Fixpoint stored_results (store : ectx -> bytes) (load : bytes -> option ectx) (aes : N -> N -> N) (d : dpf) (calls : list call) (b : bytes)
  : option (list (res (list cval) * bytes)) :=
  match calls with
  | [] => Some []
  | k :: calls' =>
      match load b with
      | None => None
      | Some c =>
          let '(r, c') := perform aes d k c in
          option_map (cons (r, store c')) (stored_results store load aes d calls' (store c'))
      end
  end.
