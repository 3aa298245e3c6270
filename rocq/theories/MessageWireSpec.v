(** Specification vocabulary for the serialized messages between the parties: ranges of fields and
    nesting. *)
From Coq Require Import List NArith ZArith Bool.
From Verif Require Import Base ValueTypesModel DpfModel DcfModel HashModel PirModel SparseModel KeyWireSpec ContextWireSpec.
Import ListNotations.
Open Scope N_scope.

(** * Ranges *)
Definition int64_ok (z : Z) : Prop := (- 2 ^ 63 <= z < 2 ^ 63)%Z.
Definition request_ok (r : request) : Prop :=
  match r with
  | RqPlain p => plain_ok p
  | RqLeader o _ => forall p, o = Some p -> plain_ok p
  | _ => True
  end.
Definition public_params_ok (p : public_params) : Prop :=
  match p with
  | PpUnset => True
  | PpCuckoo p => int32_ok (hf_family (cp_hash p)) /\ int32_ok (cp_functions p) /\ int64_ok (cp_buckets p)
  | PpSimple p => int32_ok (hf_family (sp_hash p)) /\ int64_ok (sp_buckets p)
  end.
Definition mic_key_ok (k : mic_key) : Prop := dkey_ok (mk_dcf k) /\ Forall vinteger_ok (mk_shares k).

(** * Nesting *)
Definition leader_depth (p : option plain_request) (e : option bytes) : nat :=
  Nat.max (match p with Some p => S (plain_depth p) | None => 0 end) (match e with Some _ => 1 | None => 0 end).
Definition request_depth (r : request) : nat :=
  match r with
  | RqUnset => 0
  | RqDpfUnset => 1
  | RqPlain p => 2 + plain_depth p
  | RqLeader p e => 2 + leader_depth p e
  | RqHelper _ => 2
  end.
Definition response_depth (r : response) : nat := match r with Some _ => 1 | None => 0 end.
Definition state_depth (s : client_state) : nat := match s with CsUnset => 0 | _ => 1 end.
Definition public_params_depth (p : public_params) : nat := match p with PpUnset => 0 | _ => 2 end.
Definition mic_key_depth (k : mic_key) : nat := Nat.max (2 + key_depth (mk_dcf k)) (deepest vinteger_depth (mk_shares k)).

(** * Remote servers *)

(** A server behind a connection: it receives bytes and returns bytes.  Bytes that cannot be parsed
    give an error on either side. *)
Definition remote (wr : request -> bytes) (rd : bytes -> option request) (ws : response -> bytes) (rs : bytes -> option response)
    (handle : request -> res response) (req : request) : res response :=
  match rd (wr req) with
  | None => Err INTERNAL
  | Some r => resp <- handle r ;; match rs (ws resp) with Some x => Ok x | None => Err INTERNAL end
  end.
