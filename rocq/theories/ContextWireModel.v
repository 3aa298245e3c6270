(** Evaluation contexts as serialized protocol buffers.  As in KeyWireModel.v the format and the
    parser are those of the protocol buffer library. *)
From Coq Require Import List NArith ZArith Bool.
From Verif Require Import Base ValueTypesModel DpfModel SparseModel WireModel KeyWireModel.
Import ListNotations.
Open Scope N_scope.

Section Doubles.
(** The 64 bits that represent a double (dpf/distributed_point_function.proto:105). *)
Variable dbits : dbl -> N.
(** The double that 64 bits represent (dpf/distributed_point_function.proto:105). *)
Variable dval : N -> dbl.

(** A ValueType as a message.  Simplification: both sub-messages of an IntModN are set, as
    ToValueType does (value_type_helpers.h:416-425). *)
Fixpoint whole_type (t : ptype) : mtype :=
  match t with
  | PTUnset => MTUnset
  | PTInteger b => MTInteger b
  | PTTuple els => MTTuple (map whole_type els)
  | PTIntModN b v => MTIntModN (Some b) (Some v)
  | PTXor b => MTXor b
  end.
(** An int32 is written as the varint of its 64-bit two's complement
    (dpf/distributed_point_function.proto:95, 162 and 170). *)
Definition int32_field (tag : N) (z : Z) : bytes := number_field tag (Z.to_N (z mod 2 ^ 64)).
(** DpfParameters, dpf/distributed_point_function.proto:92-106. *)
Definition write_param (p : param) : bytes :=
  int32_field 8 (p_ld p) ++ write_optional 26 (fun t => write_type (whole_type t)) (p_vt p) ++
  (if dbits (p_sec p) =? 0 then [] else 33 :: le_encode 8 (dbits (p_sec p))).
(** PartialEvaluation, dpf/distributed_point_function.proto:144-152.  Simplification: prefix and
    seed are always set, as ComputePartialEvaluations does (distributed_point_function.cc:466-475). *)
Definition write_partial (e : partial) : bytes :=
  encode_field 10 (write_uint128 (pe_prefix e)) ++ encode_field 18 (write_uint128 (pe_seed e)) ++ number_field 24 (N.b2n (pe_bit e)).
(** EvaluationContext, dpf/distributed_point_function.proto:156-171. *)
Definition write_context (c : ectx) : bytes :=
  flat_map (fun p => encode_field 10 (write_param p)) (c_params c) ++ write_optional 18 write_key (c_key c) ++
  int32_field 24 (c_prev c) ++ flat_map (fun e => encode_field 34 (write_partial e)) (c_partials c) ++ int32_field 40 (c_plevel c).

(** ValueType.Integer, dpf/distributed_point_function.proto:28-31. *)
Definition parse_integer : nat -> Z -> bytes -> option Z :=
  parse_into (fun _ m f => match f with (1, WVarint x) => Some (int32_of x) | _ => Some m end).
(** ValueType.IntModN, dpf/distributed_point_function.proto:39-44. *)
Definition intmodn_step (depth : nat) (m : Z * vinteger) (f : N * wire) : option (Z * vinteger) :=
  match f with
  | (1, WLen b) => option_map (fun z => (z, snd m)) (sub_message parse_integer depth (fst m) b)
  | (2, WLen b) => option_map (fun v => (fst m, v)) (sub_message parse_vinteger depth (snd m) b)
  | _ => Some m
  end.
(** See [intmodn_step] (dpf/distributed_point_function.proto:39-44). *)
Definition parse_intmodn : nat -> Z * vinteger -> bytes -> option (Z * vinteger) := parse_into intmodn_step.
(** ValueType, dpf/distributed_point_function.proto:25-60; Tuple, lines 34-36.  As [parse_value]. *)
Fixpoint parse_type (depth : nat) (m : ptype) (b : bytes) {struct depth} : option ptype :=
  match read_fields (length b) depth [] b with
  | None => None
  | Some fs =>
      let step := fun m f =>
        match depth, f with
        | O, (1, WLen _) | O, (2, WLen _) | O, (3, WLen _) | O, (4, WLen _) => None
        | S d, (1, WLen b) =>
            option_map PTInteger (parse_integer d (match m with PTInteger z => z | _ => 0%Z end) b)
        | S d, (2, WLen b) =>
            match read_fields (length b) d [] b with
            | None => None
            | Some gs =>
                let element := fun els g =>
                  match d, g with
                  | O, (1, WLen _) => None
                  | S d', (1, WLen b) => option_map (fun t => els ++ [t]) (parse_type d' PTUnset b)
                  | _, _ => Some els
                  end in
                option_map PTTuple (merge_fields element (match m with PTTuple els => els | _ => [] end) gs)
            end
        | S d, (3, WLen b) =>
            option_map (fun bv : Z * vinteger => PTIntModN (fst bv) (snd bv))
              (parse_intmodn d (match m with PTIntModN z v => (z, v) | _ => (0%Z, VIUnset) end) b)
        | S d, (4, WLen b) =>
            option_map PTXor (parse_integer d (match m with PTXor z => z | _ => 0%Z end) b)
        | _, _ => Some m
        end in
      merge_fields step m fs
  end.
(** DpfParameters, dpf/distributed_point_function.proto:92-106. *)
Definition param_step (depth : nat) (m : param) (f : N * wire) : option param :=
  match f with
  | (1, WVarint x) => Some {| p_ld := int32_of x; p_vt := p_vt m; p_sec := p_sec m |}
  | (3, WLen b) =>
      option_map (fun t => {| p_ld := p_ld m; p_vt := Some t; p_sec := p_sec m |})
        (sub_message parse_type depth (match p_vt m with Some t => t | None => PTUnset end) b)
  | (4, WFixed64 b) => Some {| p_ld := p_ld m; p_vt := p_vt m; p_sec := dval (le_decode b) |}
  | _ => Some m
  end.
(** See [param_step] (dpf/distributed_point_function.proto:92-106). *)
Definition parse_param : nat -> param -> bytes -> option param := parse_into param_step.
(** The default DpfParameters, dpf/distributed_point_function.proto:92-106: all bits of the
    security parameter are zero. *)
Definition default_param : param := {| p_ld := 0; p_vt := None; p_sec := dval 0 |}.
(** PartialEvaluation, dpf/distributed_point_function.proto:144-152. *)
Definition partial_step (depth : nat) (m : partial) (f : N * wire) : option partial :=
  match f with
  | (1, WLen b) =>
      option_map (fun x => {| pe_prefix := x; pe_seed := pe_seed m; pe_bit := pe_bit m |}) (sub_message parse_uint128 depth (pe_prefix m) b)
  | (2, WLen b) =>
      option_map (fun x => {| pe_prefix := pe_prefix m; pe_seed := x; pe_bit := pe_bit m |}) (sub_message parse_uint128 depth (pe_seed m) b)
  | (3, WVarint x) => Some {| pe_prefix := pe_prefix m; pe_seed := pe_seed m; pe_bit := negb (x =? 0) |}
  | _ => Some m
  end.
(** See [partial_step] (dpf/distributed_point_function.proto:144-152). *)
Definition parse_partial : nat -> partial -> bytes -> option partial := parse_into partial_step.
(** The default PartialEvaluation, dpf/distributed_point_function.proto:144-152. *)
Definition default_partial : partial := {| pe_prefix := 0; pe_seed := 0; pe_bit := false |}.
(** EvaluationContext, dpf/distributed_point_function.proto:156-171. *)
Definition context_step (depth : nat) (m : ectx) (f : N * wire) : option ectx :=
  match f with
  | (1, WLen b) =>
      option_map (fun p => {| c_params := c_params m ++ [p]; c_key := c_key m; c_prev := c_prev m; c_partials := c_partials m; c_plevel := c_plevel m |})
        (sub_message parse_param depth default_param b)
  | (2, WLen b) =>
      option_map (fun k => {| c_params := c_params m; c_key := Some k; c_prev := c_prev m; c_partials := c_partials m; c_plevel := c_plevel m |})
        (sub_message parse_key depth (match c_key m with Some k => k | None => default_key end) b)
  | (3, WVarint x) =>
      Some {| c_params := c_params m; c_key := c_key m; c_prev := int32_of x; c_partials := c_partials m; c_plevel := c_plevel m |}
  | (4, WLen b) =>
      option_map (fun e => {| c_params := c_params m; c_key := c_key m; c_prev := c_prev m; c_partials := c_partials m ++ [e]; c_plevel := c_plevel m |})
        (sub_message parse_partial depth default_partial b)
  | (5, WVarint x) =>
      Some {| c_params := c_params m; c_key := c_key m; c_prev := c_prev m; c_partials := c_partials m; c_plevel := int32_of x |}
  | _ => Some m
  end.
(** The default EvaluationContext, dpf/distributed_point_function.proto:156-171. *)
Definition default_context : ectx := {| c_params := []; c_key := None; c_prev := 0; c_partials := []; c_plevel := 0 |}.
(** ParseFromString of an EvaluationContext, as an application does that stores contexts between
    evaluations (dpf/distributed_point_function.proto:156-171). *)
Definition parse_context (limit : nat) (b : bytes) : option ectx := parse_into context_step limit default_context b.
End Doubles.
