(** Results, machine words and byte strings shared by all models.  These definitions are not
    functions of /repo but the meaning of C++ constructs; the lines cited are uses. *)
From Coq Require Import List NArith ZArith Lia Bool ZifyBool ZifyNat ZifyN.
Import ListNotations.

(** absl::StatusCode values that occur in the modelled code
    (dpf/status_macros.h:24-49; absl/status/status.h is a dependency). *)
Inductive code :=
| INVALID_ARGUMENT
| FAILED_PRECONDITION
| UNIMPLEMENTED
| INTERNAL
| RESOURCE_EXHAUSTED.

(** Outcome of a C++ call: a value, an error status, process termination
    (ABSL_CHECK failure or an uncaught exception) or undefined behaviour.
    Models absl::StatusOr<T> plus the two outcomes C++ code can have outside
    of its type (dpf/distributed_point_function.h:102-120). *)
Inductive res (A : Type) :=
| Ok (a : A)
| Err (c : code)
| Crash
| UB.
Arguments Ok {A} a.
Arguments Err {A} c.
Arguments Crash {A}.
Arguments UB {A}.

(** DPF_ASSIGN_OR_RETURN / DPF_RETURN_IF_ERROR, dpf/status_macros.h:24-49. *)
Definition bind {A B} (r : res A) (f : A -> res B) : res B :=
  match r with
  | Ok a => f a
  | Err c => Err c
  | Crash => Crash
  | UB => UB
  end.

Declare Scope res_scope.
Notation "x <- e ;; f" := (bind e (fun x => f))
  (at level 61, e at next level, right associativity) : res_scope.
Notation "' p <- e ;; f" := (bind e (fun x => match x with p => f end))
  (at level 61, p pattern, e at next level, right associativity) : res_scope.
Open Scope res_scope.

(** [if (!b) return error;], e.g. dpf/distributed_point_function.cc:663-667. *)
Definition check (b : bool) (c : code) : res unit := if b then Ok tt else Err c.
(** ABSL_CHECK(b), e.g. dpf/internal/value_type_helpers.h:217. *)
Definition abort_unless (b : bool) : res unit := if b then Ok tt else Crash.

(** v[i] on a std::vector/absl::Span/RepeatedField: undefined behaviour when out of
    range (no bounds check in release builds), e.g. dpf/distributed_point_function.cc:92. *)
Definition at_or_ub {A} (l : list A) (i : nat) : res A :=
  match nth_error l i with Some a => Ok a | None => UB end.
(** v[i] with a signed index, e.g. dpf/distributed_point_function.cc:228-229. *)
Definition atz_or_ub {A} (l : list A) (i : Z) : res A :=
  if (i <? 0)%Z then UB else at_or_ub l (Z.to_nat i).

(** Loops over a vector that stop at the first failure, e.g.
    dpf/distributed_point_function.cc:696-700. *)
Section Loops.
  Context {A B S : Type}.
  Variable f : A -> res B.
  Fixpoint mapM (l : list A) : res (list B) :=
    match l with
    | [] => Ok []
    | a :: l' => b <- f a ;; bs <- mapM l' ;; Ok (b :: bs)
    end.
  Variable g : A -> res unit.
  Fixpoint iterM (l : list A) : res unit :=
    match l with
    | [] => Ok tt
    | a :: l' => _ <- g a ;; iterM l'
    end.
  Variable h : S -> A -> res S.
  Fixpoint foldM (l : list A) (s : S) : res S :=
    match l with
    | [] => Ok s
    | a :: l' => s' <- h s a ;; foldM l' s'
    end.
End Loops.

Definition is_ok {A} (r : res A) : bool := match r with Ok _ => true | _ => false end.
(** The outcome is one the API documents: a value or an error status. *)
Definition safe {A} (r : res A) : Prop := r <> Crash /\ r <> UB.

Open Scope N_scope.
Arguments Z.mul : simpl never.
Arguments Z.add : simpl never.
Arguments Z.sub : simpl never.
Arguments Z.div : simpl never.
Arguments Z.modulo : simpl never.
Arguments Z.pow : simpl never.
Arguments Z.of_nat : simpl never.
Arguments Z.to_nat : simpl never.
Arguments Z.of_N : simpl never.
Arguments Z.to_N : simpl never.
Arguments Z.land : simpl never.
Arguments N.add : simpl never.
Arguments N.sub : simpl never.
Arguments N.mul : simpl never.
Arguments N.div : simpl never.
Arguments N.modulo : simpl never.
Arguments N.pow : simpl never.
Arguments N.shiftr : simpl never.
Arguments N.shiftl : simpl never.
Arguments N.lxor : simpl never.
Arguments N.land : simpl never.
Arguments N.lor : simpl never.
Arguments N.log2_up : simpl never.

(** 2^128 as a literal, so that lia can compute with it. *)
Notation P64 := 18446744073709551616.
Notation P128 := 340282366920938463463374607431768211456.

(** absl::uint128 arithmetic wraps modulo 2^128, e.g. dpf/distributed_point_function.cc:98-99. *)
Definition w128 (x : N) : N := x mod P128.
(** absl::Uint128High64 / absl::Uint128Low64 / absl::MakeUint128, e.g.
    dpf/distributed_point_function.cc:444 and 685-688. *)
Definition hi64 (x : N) : N := (x / P64) mod P64.
Definition lo64 (x : N) : N := x mod P64.
Definition mk128 (hi lo : N) : N := (hi mod P64) * P64 + lo mod P64.

(** Conversion of an integer to C++ int (two's complement truncation), e.g.
    pir/internal/inner_product_hwy.cc:191 and 311. *)
Definition to_int32 (x : Z) : Z := ((x + 2147483648) mod 4294967296 - 2147483648)%Z.

(** Byte strings are lists of numbers; a byte is read modulo 256
    (absl::string_view, e.g. dpf/internal/value_type_helpers.h:205-225). *)
Definition bytes := list N.

(** Little-endian value of a byte string (std::copy_n into an unsigned integer on a
    little-endian host), e.g. dpf/internal/value_type_helpers.h:220. *)
Fixpoint le_decode (b : bytes) : N :=
  match b with
  | [] => 0
  | x :: b' => x mod 256 + 256 * le_decode b'
  end.
(** Memory representation of an [n]-byte unsigned integer on a little-endian host, e.g.
    dpf/distributed_point_function.h:863. *)
Fixpoint le_encode (n : nat) (x : N) : bytes :=
  match n with
  | O => []
  | S n' => x mod 256 :: le_encode n' (x / 256)
  end.

(** absl::string_view::substr(pos, n); throws std::out_of_range when pos > size, e.g.
    dpf/internal/value_type_helpers.h:596-600. *)
Definition substr (b : bytes) (pos n : nat) : res bytes :=
  if Nat.leb pos (length b) then Ok (firstn n (skipn pos b)) else Crash.
(** absl::string_view::substr(pos), e.g. dpf/internal/value_type_helpers.h:247. *)
Definition substr_from (b : bytes) (pos : nat) : res bytes :=
  if Nat.leb pos (length b) then Ok (skipn pos b) else Crash.

(** Chunking a list into pieces of at most n elements (batch loops, e.g.
    dpf/aes_128_fixed_key_hash.cc:73-98). *)
Fixpoint chunks_fuel {A} (fuel n : nat) (l : list A) : list (list A) :=
  match fuel with
  | O => []
  | S f => match l with
           | [] => []
           | _ => firstn n l :: chunks_fuel f n (skipn n l)
           end
  end.
(** for (start = 0; start < l.size(); start += n) over subspans; the fuel [length l]
    is always sufficient for n > 0 (lemma [concat_chunks] in ListUtil.v), e.g.
    dpf/aes_128_fixed_key_hash.cc:73-98. *)
Definition chunks {A} (n : nat) (l : list A) : list (list A) := chunks_fuel (length l) n l.

(** v[i] = a; callers have checked that i is in range, e.g.
    pir/hashing/cuckoo_hash_table.cc:78. *)
Fixpoint set_nth {A} (l : list A) (i : nat) (a : A) : list A :=
  match l, i with
  | [], _ => []
  | _ :: l', O => a :: l'
  | x :: l', S i' => x :: set_nth l' i' a
  end.
