(** Specification vocabulary for the comparison function and the interval containment
    gate. *)
From Coq Require Import List NArith ZArith QArith Bool.
From Verif Require Import Base ListUtil ValueTypesModel ValueTypesSpec DpfModel DpfSpec DcfModel.
Import ListNotations.
Open Scope N_scope.

(** [dcf_created F p types c]: [c] results from Create on the parameters [p], after calls
    of the templated GenerateKeys for the types [types]. *)
Definition dcf_created (F : fops) (p : param) (types : list cty) (c : dcf) : Prop :=
  exists c0, dcf_create F p = Ok c0 /\ Forall (fun T => cty_ok T = true) types /\
    c = fold_right dcf_register c0 types.

(** [T] is the C++ type of the values of the DCF. *)
Definition dcf_has (p : param) (T : cty) : Prop := cty_ok T = true /\ denotes (p_type p) T.
(** The value type is registered. *)
Definition dcf_registered (p : param) (types : list cty) : Prop :=
  exists T, In T (types ++ [TInt 128; TInt 64; TInt 32; TInt 16; TInt 8]) /\
            p_vt p = Some (to_value_type T).

(** Types without XorWrapper. *)
Fixpoint no_xor (t : cty) : bool :=
  match t with
  | TXor _ => false
  | TTup ts => forallb no_xor ts
  | _ => true
  end.

(** A generated key pair with the arguments it was generated from. *)
Record dcf_pair := { dp_alpha : N; dp_beta : pvalue; dp_key0 : dkey; dp_key1 : dkey }.
Definition dcf_generated (aes : N -> N -> N) (c : dcf) (g : dcf_pair) : Prop :=
  dp_alpha g < 2 ^ 128 /\
  exists seed0 seed1,
    dcf_generate_keys aes c (dp_alpha g) (dp_beta g) seed0 seed1 = Ok (dp_key0 g, dp_key1 g).

(** [y] is beta if x < alpha and the neutral element otherwise. *)
Definition compares (T : cty) (g : dcf_pair) (x : N) (y : cval) : Prop :=
  (x < dp_alpha g -> repr T (dp_beta g) y) /\ (dp_alpha g <= x -> y = vzero T).

(** * Interval containment *)

(** The bounds the caller set, in either encoding. *)
Definition bounds (i : interval) (p q : N) : Prop :=
  exists a b, iv_lower i = Some a /\ iv_upper i = Some b /\ encodes a p /\ encodes b q.
(** The bounds that are set use value_uint128. *)
Definition is_u128 (i : option vinteger) : Prop :=
  match i with Some (VI128 _ _) | None => True | _ => False end.
Definition u128_bounds (i : interval) : Prop := is_u128 (iv_lower i) /\ is_u128 (iv_upper i).
Definition group_size (mp : mic_params) : N := 2 ^ Z.to_N (mp_log mp).

(** A generated key pair of the gate with its masks. *)
Record mic_pair := { mg_in : N; mg_out : list N; mg_key0 : mic_key; mg_key1 : mic_key }.
Definition mic_generated (aes : N -> N -> N) (m : mic) (g : mic_pair) : Prop :=
  exists seed0 seed1 rnd,
    mic_gen aes m (mg_in g) (mg_out g) seed0 seed1 rnd = Ok (mg_key0 g, mg_key1 g).

(** The two output vectors [o0] and [o1] for the masked input of [x] add up, modulo the
    group size, to the output masks plus one for the intervals that contain [x]. *)
Definition contains_shares (mp : mic_params) (g : mic_pair) (x : N) (o0 o1 : list N) : Prop :=
  length o0 = length (mp_intervals mp) /\ length o1 = length (mp_intervals mp) /\
  forall j i p q r a b, nth_error (mp_intervals mp) j = Some i -> bounds i p q ->
    nth_error (mg_out g) j = Some r -> nth_error o0 j = Some a -> nth_error o1 j = Some b ->
    (a + b) mod group_size mp
    = (r + (if (p <=? x) && (x <=? q) then 1 else 0)) mod group_size mp.
