(** The serialized ValueType messages that are the keys of value_correction_functions_. *)
From Coq Require Import List NArith ZArith Bool.
From Verif Require Import Base ValueTypesModel DpfModel SparseModel.
Import ListNotations.
Open Scope N_scope.

(** ValueType with the presence of its sub-messages, distributed_point_function.proto:25-60.
    Simplification: messages without unknown fields (distributed_point_function.h:634-639). *)
Inductive mtype :=
| MTUnset
| MTInteger (bitsize : Z)
| MTTuple (els : list mtype)
| MTIntModN (base : option Z) (modulus : option vinteger)
| MTXor (bitsize : Z).

(** What the accessors of a message return: an unset sub-message reads as its default
    (distributed_point_function.proto:25-60). *)
Fixpoint read_type (m : mtype) : ptype :=
  match m with
  | MTUnset => PTUnset
  | MTInteger b => PTInteger b
  | MTTuple els => PTTuple (map read_type els)
  | MTIntModN b v => PTIntModN (match b with Some b => b | None => 0%Z end)
                               (match v with Some v => v | None => VIUnset end)
  | MTXor b => PTXor b
  end.

(** ToValueType, value_type_helpers.h:208-212, 294-301, 416-425, 496-501. *)
Fixpoint message_of (t : cty) : mtype :=
  match t with
  | TInt w => MTInteger (Z.of_N w)
  | TMod w m => MTIntModN (Some (Z.of_N w)) (Some (uint128_to_vinteger m))
  | TTup ts => MTTuple (map message_of ts)
  | TXor w => MTXor (Z.of_N w)
  end.

(** A numeric field outside of a oneof: not written if it is zero
    (distributed_point_function.proto:30, 109-110). *)
Definition number_field (tag v : N) : bytes :=
  if v =? 0 then [] else tag :: varint_encode 10 v.
(** ValueType.Integer: an int32 is written as the varint of its 64-bit two's complement
    (distributed_point_function.proto:28-31). *)
Definition write_integer (b : Z) : bytes := number_field 8 (Z.to_N (b mod 2 ^ 64)).
(** Block, distributed_point_function.proto:108-111. *)
Definition write_block (hi lo : N) : bytes := number_field 8 hi ++ number_field 16 lo.
(** Value.Integer: members of a oneof are written even if they are zero
    (distributed_point_function.proto:65-72). *)
Definition write_vinteger (v : vinteger) : bytes :=
  match v with
  | VIUnset => []
  | VI64 x => 8 :: varint_encode 10 x
  | VI128 hi lo => encode_field 18 (write_block hi lo)
  end.
(** An optional sub-message, distributed_point_function.proto:39-44. *)
Definition write_optional {A : Type} (tag : N) (f : A -> bytes) (o : option A) : bytes :=
  match o with Some x => encode_field tag (f x) | None => [] end.
(** ValueType, distributed_point_function.proto:25-60: fields in the order of their numbers. *)
Fixpoint write_type (m : mtype) : bytes :=
  match m with
  | MTUnset => []
  | MTInteger b => encode_field 10 (write_integer b)
  | MTTuple els => encode_field 18 (flat_map (fun e => encode_field 10 (write_type e)) els)
  | MTIntModN b v => encode_field 26 (write_optional 10 write_integer b ++ write_optional 18 write_vinteger v)
  | MTXor b => encode_field 34 (write_integer b)
  end.

(** SerializeValueTypeDeterministically, distributed_point_function.cc:552-568: messages of
    more than INT_MAX bytes are not serialized. *)
Definition serialize_value_type (m : mtype) : res bytes :=
  _ <- check (N.of_nat (length (write_type m)) <? 2 ^ 31) INTERNAL ;;
  Ok (write_type m).

(** Equality of keys, distributed_point_function.h:640. *)
Fixpoint bytes_eqb (a b : bytes) : bool :=
  match a, b with
  | [], [] => true
  | x :: a', y :: b' => (x =? y) && bytes_eqb a' b'
  | _, _ => false
  end.
(** value_correction_functions_, distributed_point_function.h:640-641.  The function
    ComputeValueCorrectionFor<T> is represented by T. *)
Definition table : Type := list (bytes * cty).
(** operator[] followed by an assignment: replaces the entry of the key
    (distributed_point_function.h:658-659). *)
Fixpoint assign (k : bytes) (T : cty) (t : table) : table :=
  match t with
  | [] => [(k, T)]
  | (k', T') :: t' => if bytes_eqb k k' then (k, T) :: t' else (k', T') :: assign k T t'
  end.
(** flat_hash_map::find, distributed_point_function.cc:577. *)
Fixpoint find_key (k : bytes) (t : table) : option cty :=
  match t with
  | [] => None
  | (k', T) :: t' => if bytes_eqb k k' then Some T else find_key k t'
  end.
(** RegisterValueTypeImpl, distributed_point_function.h:648-661. *)
Definition register_type (T : cty) (t : table) : res table :=
  k <- serialize_value_type (message_of T) ;;
  Ok (assign k T t).
(** CreateIncremental registers the five integer types (distributed_point_function.cc:622-636),
    later calls of RegisterValueType or ToValue register more
    (distributed_point_function.h:107-134).  [Ts] are all of them in order. *)
Definition register_all (Ts : list cty) (t : table) : res table :=
  foldM (fun t T => register_type T t) Ts t.
(** GetValueCorrectionFunction, distributed_point_function.cc:570-585. *)
Definition get_function (t : table) (m : mtype) : res cty :=
  k <- serialize_value_type m ;;
  match find_key k t with
  | Some T => Ok T
  | None => Err FAILED_PRECONDITION
  end.
