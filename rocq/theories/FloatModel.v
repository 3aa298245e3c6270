(** Model of the computations with doubles: GetSecurityLevel, the security parameter of tuple
    elements and ceil(log2(n)). *)
From Coq Require Import List NArith ZArith QArith Qround Bool.
From Verif Require Import Base ValueTypesModel.
Import ListNotations.
Open Scope N_scope.

(** Operations on finite doubles, which are rationals: the conversion of an unsigned integer (a double
    that is nearest to an integer is an integer), std::log2 of an integer, + and -.  Simplification: no overflow
    to infinity, which cannot happen for the numbers in use. *)
Record dops := {
  o_of_int : N -> N;
  o_log2 : N -> Q;
  o_add : Q -> Q -> Q;
  o_sub : Q -> Q -> Q
}.

(** std::log2(static_cast<double>(n)). *)
Definition log2_of (O : dops) (n : N) : Q := o_log2 O (o_of_int O n).

(** IntModNBase::GetSecurityLevel, int_mod_n.cc:29-34 (modulus and num_samples positive).
    Simplified: num_samples + 1 does not wrap, as the int does for INT_MAX. *)
Definition get_security_level (O : dops) (num_samples : N) (modulus : N) : Q :=
  o_sub O (inject_Z (128 + 3))
    (o_add O (o_add O (log2_of O modulus) (log2_of O num_samples)) (log2_of O (num_samples + 1))).

(** security_parameter > sigma, int_mod_n.cc:60, and security_parameter + std::log2(...),
    value_type_helpers.cc:107-108.  Comparisons with NaN are false, infinities stay what they are. *)
Definition fops_of (O : dops) : fops := {|
  f_add_log2 := fun s n => match s with DFin q => DFin (o_add O q (log2_of O n)) | _ => s end;
  f_gt_level := fun s n m =>
    match s with
    | DNaN => false
    | DInf positive => positive
    | DFin q => negb (Qle_bool q (get_security_level O n m))
    end
|}.

(** static_cast<int>(std::ceil(std::log2(n))) for positive n, proto_validator.cc:138, dense_dpf_pir_server.cc:77-78,
    dense_dpf_pir_client.cc:65-66, cuckoo_hashing_sparse_dpf_pir_server.cc:120-121,
    simple_hashing_sparse_dpf_pir_server.cc:114-115. *)
Definition ceil_log2 (O : dops) (n : Z) : Z := Qceiling (log2_of O (Z.to_N n)).
