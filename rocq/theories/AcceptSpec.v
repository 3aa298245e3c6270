(** Specification vocabulary for C89: which keys and evaluation contexts a DPF accepts. *)
From Coq Require Import List NArith ZArith QArith Bool.
From Verif Require Import Base ValueTypesModel ValueTypesSpec DpfModel.
Import ListNotations.
Open Scope N_scope.

(** Two security parameters that differ by at most 1/10000. *)
Definition near (x y : Q) : Prop := (x - y <= 1 # 10000)%Q /\ (y - x <= 1 # 10000)%Q.

(** The security parameter that the caller of Create asked for: 40 bits more than
    log_domain_size if it is not set. *)
Inductive asks (p : param) : Q -> Prop :=
| asks_own : forall x, p_sec p = DFin x -> ~ (x == 0)%Q -> asks p x
| asks_default : forall x, p_sec p = DFin x -> (x == 0)%Q -> asks p (inject_Z (40 + p_ld p)).

(** Two descriptions of value types that only differ in how moduli are encoded. *)
Inductive same_type : ptype -> ptype -> Prop :=
| same_int : forall w, same_type (PTInteger w) (PTInteger w)
| same_mod : forall w i j n, encodes i n -> encodes j n -> same_type (PTIntModN w i) (PTIntModN w j)
| same_xor : forall w, same_type (PTXor w) (PTXor w)
| same_tup : forall ts us, Forall2 same_type ts us -> same_type (PTTuple ts) (PTTuple us).

(** Parameters [c] of a context that are those [p] passed to Create: the same domain, the same
    type, and a security parameter that is near, or not set where Create's is near the
    default. *)
Record same_parameters (p c : param) : Prop := {
  same_domain : p_ld c = p_ld p;
  same_security : exists x y, asks p x /\ p_sec c = DFin y /\
    (near x y \/ (y == 0)%Q /\ near x (inject_Z (40 + p_ld p)));
  same_value_type : exists t u, p_vt p = Some t /\ p_vt c = Some u /\ same_type t u
}.

(** A key of the shape the DPF expects: a seed, a correction word for each tree level, with a
    value correction where a hierarchy level ends, and one for the last level. *)
Record key_shape (ps : list param) (d : dpf) (key : dkey) : Prop := {
  shape_seed : k_seed key <> None;
  shape_last : k_last key <> [];
  shape_length : length (k_cws key) = nth (length ps - 1) (d_h2t d) 0%nat;
  shape_values : forall h, (h < length ps - 1)%nat ->
    exists cw, nth_error (k_cws key) (nth h (d_h2t d) 0%nat) = Some cw /\ cw_values cw <> []
}.

(** A context made for these parameters, with such a key, with levels left to evaluate, and
    without stored nodes below its previous level. *)
Record accepted_context (ps : list param) (d : dpf) (c : ectx) : Prop := {
  acc_params : Forall2 same_parameters ps (c_params c);
  acc_key : exists key, c_key c = Some key /\ key_shape ps d key;
  acc_prev : (c_prev c < Z.of_nat (length ps) - 1)%Z;
  acc_partials : c_partials c = [] \/ (c_plevel c <= c_prev c)%Z
}.
