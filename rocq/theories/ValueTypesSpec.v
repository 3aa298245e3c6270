(** Specification vocabulary for value types, independent of the model's helpers. *)
From Coq Require Import List NArith ZArith Bool.
From Verif Require Import Base ValueTypesModel.
Import ListNotations.
Open Scope N_scope.

(** [wt t v]: [v] is a value of the C++ type [t] (numbers within range of the type;
    for IntModN below the modulus; tuples element-wise). *)
Fixpoint wt (t : cty) (v : cval) : bool :=
  match t, v with
  | TInt w, VNum n => n <? 2 ^ w
  | TXor w, VNum n => n <? 2 ^ w
  | TMod _ m, VNum n => n <? m
  | TTup ts, VTup vs => all2 wt ts vs
  | _, _ => false
  end.

(** The group operation the API documentation promises: addition modulo 2^w, addition
    modulo m, XOR, and component-wise.  [gsum t a b c] says c is the sum of a and b. *)
Inductive gsum : cty -> cval -> cval -> cval -> Prop :=
| gsum_int : forall w x y, gsum (TInt w) (VNum x) (VNum y) (VNum ((x + y) mod 2 ^ w))
| gsum_mod : forall w m x y, gsum (TMod w m) (VNum x) (VNum y) (VNum ((x + y) mod m))
| gsum_xor : forall w x y, gsum (TXor w) (VNum x) (VNum y) (VNum (N.lxor x y))
| gsum_tup : forall ts xs ys zs, gsums ts xs ys zs ->
    gsum (TTup ts) (VTup xs) (VTup ys) (VTup zs)
with gsums : list cty -> list cval -> list cval -> list cval -> Prop :=
| gsums_nil : gsums [] [] [] []
| gsums_cons : forall t ts x xs y ys z zs,
    gsum t x y z -> gsums ts xs ys zs -> gsums (t :: ts) (x :: xs) (y :: ys) (z :: zs).

(** The integer a Value.Integer proto encodes. *)
Definition encodes (i : vinteger) (x : N) : Prop :=
  match i with
  | VIUnset => False
  | VI64 v => x = v mod 2 ^ 64
  | VI128 h l => x = (h mod 2 ^ 64) * 2 ^ 64 + l mod 2 ^ 64
  end.

(** [repr t p v]: the Value proto [p] denotes the value [v] of type [t]. *)
Inductive repr : cty -> pvalue -> cval -> Prop :=
| repr_int : forall w i x, encodes i x -> x < 2 ^ w -> repr (TInt w) (PVInteger i) (VNum x)
| repr_mod : forall w m i x, encodes i x -> x < m -> repr (TMod w m) (PVIntModN i) (VNum x)
| repr_xor : forall w i x, encodes i x -> x < 2 ^ w -> repr (TXor w) (PVXor i) (VNum x)
| repr_tup : forall ts ps vs, reprs ts ps vs -> repr (TTup ts) (PVTuple ps) (VTup vs)
with reprs : list cty -> list pvalue -> list cval -> Prop :=
| reprs_nil : reprs [] [] []
| reprs_cons : forall t ts p ps v vs,
    repr t p v -> reprs ts ps vs -> reprs (t :: ts) (p :: ps) (v :: vs).

(** [denotes p t]: the ValueType proto [p] describes the C++ type [t]. *)
Inductive denotes : ptype -> cty -> Prop :=
| denotes_int : forall w, denotes (PTInteger (Z.of_N w)) (TInt w)
| denotes_mod : forall w m i, encodes i m -> denotes (PTIntModN (Z.of_N w) i) (TMod w m)
| denotes_xor : forall w, denotes (PTXor (Z.of_N w)) (TXor w)
| denotes_tup : forall ps ts, Forall2 denotes ps ts -> denotes (PTTuple ps) (TTup ts).

(** Number of bytes that the conversion of bytes to a type consumes: the sizes of the integers in
    it, all of them if the type contains no IntModN (as often as it fits into 16 bytes), else 16
    bytes and all of them but the last. *)
Fixpoint leaf_sizes (t : cty) : list nat :=
  match t with
  | TInt w | TXor w | TMod w _ => [N.to_nat (w / 8)]
  | TTup ts => flat_map leaf_sizes ts
  end.
Fixpoint has_mod (t : cty) : bool :=
  match t with
  | TMod _ _ => true
  | TInt _ | TXor _ => false
  | TTup ts => existsb has_mod ts
  end.
Definition bytes_consumed (t : cty) : nat :=
  let size := list_sum (leaf_sizes t) in
  if has_mod t then (16 + list_sum (removelast (leaf_sizes t)))%nat
  else (Nat.max 1 (Nat.div 16 size) * size)%nat.
