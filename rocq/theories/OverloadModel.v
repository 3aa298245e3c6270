(** Model of the overloads of GenerateKeys and GenerateKeysIncremental that take integers or values of
    C++ types, dpf/distributed_point_function.h:112-275 and 663-696.  The overload for Value protos is
    [generate_keys] (DpfModel.v).
    Simplification: which overload a call selects is decided by the compiler and not modelled.  A value
    of a C++ type is a pair of the type and a [cval]. *)
From Coq Require Import List NArith ZArith.
From Verif Require Import Base ValueTypesModel DpfModel.
Import ListNotations.
Open Scope N_scope.

(** DistributedPointFunction::ToValue<T>, distributed_point_function.h:114-121: registers the type with
    the object and converts.  Simplification: as in [register_value_type], registering never fails. *)
Definition dpf_to_value (d : dpf) (b : cty * cval) : pvalue * dpf :=
  let d := register_value_type (fst b) d in (to_value (fst b) (snd b), d).

(** The loop of the version for a span, distributed_point_function.h:250-256. *)
Fixpoint convert_span (d : dpf) (T : cty) (beta : list cval) : list pvalue * dpf :=
  match beta with
  | [] => ([], d)
  | x :: beta' =>
      let '(v, d) := dpf_to_value d (T, x) in
      let '(values, d) := convert_span d T beta' in
      (v :: values, d)
  end.

(** The conversion of the parameter pack, in order, distributed_point_function.h:668-690; [values] are
    those already converted. *)
Fixpoint convert_pack (d : dpf) (values : list pvalue) (beta : list (cty * cval)) : list pvalue * dpf :=
  match beta with
  | [] => (values, d)
  | b :: beta' => let '(v, d) := dpf_to_value d b in convert_pack d (values ++ [v]) beta'
  end.

Section Generate.
Variable aes : N -> N -> N.

(** GenerateKeysIncremental(alpha, Span<const T>), distributed_point_function.h:245-258; returns the
    outcome and the object afterwards, which may know more value types. *)
Definition generate_keys_span (d : dpf) (T : cty) (alpha : N) (beta : list cval) (seed0 seed1 : N)
  : res (dkey * dkey) * dpf :=
  let '(values, d) := convert_span d T beta in
  (generate_keys aes d alpha values seed0 seed1, d).

(** GenerateKeysIncremental(alpha, vector<uint128>), distributed_point_function.h:239-242. *)
Definition generate_keys_integers (d : dpf) (alpha : N) (beta : list N) (seed0 seed1 : N)
  : res (dkey * dkey) * dpf :=
  generate_keys_span d (TInt 128) alpha (map VNum beta) seed0 seed1.

(** GenerateKeysIncremental(alpha, beta_0, beta_n...), distributed_point_function.h:663-696. *)
Definition generate_keys_pack (d : dpf) (alpha : N) (beta_0 : cty * cval) (beta_n : list (cty * cval))
    (seed0 seed1 : N) : res (dkey * dkey) * dpf :=
  let '(v, d) := dpf_to_value d beta_0 in
  let '(values, d) := convert_pack d [v] beta_n in
  (generate_keys aes d alpha values seed0 seed1, d).

(** GenerateKeys(alpha, uint128), distributed_point_function.h:174-177. *)
Definition generate_keys_one_integer (d : dpf) (alpha beta seed0 seed1 : N) : res (dkey * dkey) * dpf :=
  generate_keys_span d (TInt 128) alpha [VNum beta] seed0 seed1.

(** GenerateKeys(alpha, Value), distributed_point_function.h:180-183. *)
Definition generate_keys_one_value (d : dpf) (alpha : N) (beta : pvalue) (seed0 seed1 : N)
  : res (dkey * dkey) * dpf :=
  (generate_keys aes d alpha [beta] seed0 seed1, d).

(** GenerateKeys(alpha, T), distributed_point_function.h:188-199. *)
Definition generate_keys_one (d : dpf) (alpha : N) (beta : cty * cval) (seed0 seed1 : N)
  : res (dkey * dkey) * dpf :=
  let '(v, d) := dpf_to_value d beta in
  (generate_keys aes d alpha [v] seed0 seed1, d).
End Generate.
