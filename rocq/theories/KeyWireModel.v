(** DPF keys and PIR requests as serialized protocol buffers: what a client sends to a Helper
    (pir/dpf_pir_client.h:108-110) and what the Helper reads (pir/dpf_pir_server.cc:168-172). *)
From Coq Require Import List NArith ZArith Bool.
From Verif Require Import Base ValueTypesModel DpfModel PirModel SparseModel WireModel.
Import ListNotations.
Open Scope N_scope.

(** * Serialization: fields in the order of their numbers *)

(** A uint128 as a Block, dpf/distributed_point_function.proto:108-111. *)
Definition write_uint128 (x : N) : bytes := write_block (hi64 x) (lo64 x).
(** Value, dpf/distributed_point_function.proto:63-100. *)
Fixpoint write_value (v : pvalue) : bytes :=
  match v with
  | PVUnset => []
  | PVInteger i => encode_field 10 (write_vinteger i)
  | PVTuple els => encode_field 18 (flat_map (fun e => encode_field 10 (write_value e)) els)
  | PVIntModN i => encode_field 26 (write_vinteger i)
  | PVXor i => encode_field 34 (write_vinteger i)
  end.
(** CorrectionWord, dpf/distributed_point_function.proto:114-125.  Simplification: the seed of a
    correction word is always set, as GenerateNext sets it (distributed_point_function.cc:214-216). *)
Definition write_cword (cw : cword) : bytes :=
  encode_field 10 (write_uint128 (cw_seed cw)) ++ number_field 16 (N.b2n (cw_left cw)) ++ number_field 24 (N.b2n (cw_right cw)) ++
  flat_map (fun v => encode_field 42 (write_value v)) (cw_values cw).
(** DpfKey, dpf/distributed_point_function.proto:129-140; party is an int32. *)
Definition write_key (k : dkey) : bytes :=
  write_optional 10 write_uint128 (k_seed k) ++ flat_map (fun cw => encode_field 18 (write_cword cw)) (k_cws k) ++
  number_field 24 (Z.to_N (k_party k mod 2 ^ 64)) ++ flat_map (fun v => encode_field 42 (write_value v)) (k_last k).
(** DpfPirRequest.PlainRequest, pir/private_information_retrieval.proto:128-134; the fingerprint
    is a fixed32. *)
Definition write_plain (q : plain_request) : bytes :=
  flat_map (fun k => encode_field 10 (write_key k)) (pq_keys q) ++
  (if pq_fingerprint q =? 0 then [] else 21 :: le_encode 4 (pq_fingerprint q)).
(** DpfPirRequest.HelperRequest, pir/private_information_retrieval.proto:150-153. *)
Definition write_helper (h : helper_request) : bytes :=
  write_optional 10 write_plain (hq_plain h) ++ (match hq_seed h with [] => [] | _ => encode_field 18 (hq_seed h) end).
(** SerializeAsString, pir/dpf_pir_client.h:110: messages of more than INT_MAX bytes give the
    empty string. *)
Definition serialize_helper (h : helper_request) : bytes :=
  if N.of_nat (length (write_helper h)) <? 2 ^ 31 then write_helper h else [].

(** * Parsing *)

(** The value of a field: a varint, 8 bytes, a length-delimited value, or 4 bytes
    (pir/dpf_pir_server.cc:169). *)
Inductive wire := WVarint (x : N) | WFixed64 (b : bytes) | WLen (b : bytes) | WFixed32 (b : bytes).
(** The first [n] bytes and the rest, None if there are fewer (pir/dpf_pir_server.cc:169). *)
Definition take_bytes (n : N) (b : bytes) : option (bytes * bytes) :=
  if N.of_nat (length b) <? n then None else Some (firstn (N.to_nat n) b, skipn (N.to_nat n) b).
(** Tags and sizes are varints of at most five bytes; a tag is read modulo 2^32, a size above
    INT_MAX - 16 is rejected (pir/dpf_pir_server.cc:169). *)
Definition read_tag (b : bytes) : option (N * bytes) :=
  match varint_decode 5 b with Some (t, r) => Some (t mod 2 ^ 32, r) | None => None end.
(** See [read_tag] (pir/dpf_pir_server.cc:169). *)
Definition read_size (b : bytes) : option (N * bytes) :=
  match varint_decode 5 b with Some (n, r) => if n <=? 2 ^ 31 - 17 then Some (n, r) else None | None => None end.
(** Reading the value of a field other than a group, by its wire type (pir/dpf_pir_server.cc:169). *)
Definition read_wire (type : N) (b : bytes) : option (wire * bytes) :=
  match type with
  | 0 => match varint_decode 10 b with Some (x, r) => Some (WVarint (x mod 2 ^ 64), r) | None => None end
  | 1 => match take_bytes 8 b with Some (x, r) => Some (WFixed64 x, r) | None => None end
  | 2 => match read_size b with
         | Some (n, r) => match take_bytes n r with Some (x, r) => Some (WLen x, r) | None => None end
         | None => None
         end
  | 5 => match take_bytes 4 b with Some (x, r) => Some (WFixed32 x, r) | None => None end
  | _ => None
  end.
(** The fields of a message with their numbers, without what is inside of groups (none of the
    messages has a group, so all of them are unknown).  Groups are nested at most [depth] deep;
    [groups] are the numbers of those around the current field.  None: ParseFromString returns
    false (pir/dpf_pir_server.cc:169). *)
Fixpoint read_fields (fuel depth : nat) (groups : list N) (b : bytes) : option (list (N * wire)) :=
  match b with
  | [] => match groups with [] => Some [] | _ => None end
  | _ =>
      match fuel with
      | O => None
      | S fuel' =>
          match read_tag b with
          | None => None
          | Some (tag, b1) =>
              if tag / 8 =? 0 then None
              else if tag mod 8 =? 3 then
                if Nat.ltb (length groups) depth then read_fields fuel' depth (tag / 8 :: groups) b1 else None
              else if tag mod 8 =? 4 then
                match groups with
                | g :: groups' => if g =? tag / 8 then read_fields fuel' depth groups' b1 else None
                | [] => None
                end
              else match read_wire (tag mod 8) b1 with
                   | None => None
                   | Some (w, b2) =>
                       match read_fields fuel' depth groups b2 with
                       | None => None
                       | Some fs => Some (match groups with [] => (tag / 8, w) :: fs | _ => fs end)
                       end
                   end
          end
      end
  end.
(** Merging the fields into a message in their order (pir/dpf_pir_server.cc:169). *)
Fixpoint merge_fields {A : Type} (step : A -> N * wire -> option A) (m : A) (fs : list (N * wire)) : option A :=
  match fs with
  | [] => Some m
  | f :: fs' => match step m f with Some m' => merge_fields step m' fs' | None => None end
  end.
(** Parsing the bytes [b] into the message [m]: [step d] handles one field, where messages inside
    of this one can be nested [d] deep (pir/dpf_pir_server.cc:169). *)
Definition parse_into {A : Type} (step : nat -> A -> N * wire -> option A) (depth : nat) (m : A) (b : bytes) : option A :=
  match read_fields (length b) depth [] b with
  | None => None
  | Some fs => merge_fields (step depth) m fs
  end.
(** A sub-message, which takes one level of nesting (pir/dpf_pir_server.cc:169). *)
Definition sub_message {A : Type} (parse : nat -> A -> bytes -> option A) (depth : nat) (m : A) (b : bytes) : option A :=
  match depth with O => None | S d => parse d m b end.

(** Block, dpf/distributed_point_function.proto:108-111. *)
Definition parse_block : nat -> N * N -> bytes -> option (N * N) :=
  parse_into (fun _ m f =>
    match f with
    | (1, WVarint x) => Some (x, snd m)
    | (2, WVarint x) => Some (fst m, x)
    | _ => Some m
    end).
(** A Block that represents a uint128, distributed_point_function.cc:271-272 and 443-444. *)
Definition parse_uint128 (depth : nat) (x : N) (b : bytes) : option N :=
  match parse_block depth (hi64 x, lo64 x) b with Some (h, l) => Some (2 ^ 64 * h + l) | None => None end.
(** Value.Integer, dpf/distributed_point_function.proto:65-72: a member of a oneof replaces the
    one set before, unless both are the same sub-message, which are then merged. *)
Definition parse_vinteger : nat -> vinteger -> bytes -> option vinteger :=
  parse_into (fun depth m f =>
    match f with
    | (1, WVarint x) => Some (VI64 x)
    | (2, WLen b) =>
        match sub_message parse_block depth (match m with VI128 h l => (h, l) | _ => (0, 0) end) b with
        | Some (h, l) => Some (VI128 h l)
        | None => None
        end
    | _ => Some m
    end).
(** Value, dpf/distributed_point_function.proto:63-100; Tuple, lines 77-79. *)
Fixpoint parse_value (depth : nat) (m : pvalue) (b : bytes) {struct depth} : option pvalue :=
  match read_fields (length b) depth [] b with
  | None => None
  | Some fs =>
      let step := fun m f =>
        match depth, f with
        | O, (1, WLen _) | O, (2, WLen _) | O, (3, WLen _) | O, (4, WLen _) => None
        | S d, (1, WLen b) =>
            option_map PVInteger (parse_vinteger d (match m with PVInteger i => i | _ => VIUnset end) b)
        | S d, (2, WLen b) =>
            match read_fields (length b) d [] b with
            | None => None
            | Some gs =>
                let element := fun els g =>
                  match d, g with
                  | O, (1, WLen _) => None
                  | S d', (1, WLen b) => option_map (fun v => els ++ [v]) (parse_value d' PVUnset b)
                  | _, _ => Some els
                  end in
                option_map PVTuple (merge_fields element (match m with PVTuple els => els | _ => [] end) gs)
            end
        | S d, (3, WLen b) =>
            option_map PVIntModN (parse_vinteger d (match m with PVIntModN i => i | _ => VIUnset end) b)
        | S d, (4, WLen b) =>
            option_map PVXor (parse_vinteger d (match m with PVXor i => i | _ => VIUnset end) b)
        | _, _ => Some m
        end in
      merge_fields step m fs
  end.
(** CorrectionWord, dpf/distributed_point_function.proto:114-125.  Simplification: a missing seed
    reads as the default Block, as everywhere in the code (distributed_point_function.cc:271-272 and 332-333). *)
Definition parse_cword : nat -> cword -> bytes -> option cword :=
  parse_into (fun depth m f =>
    match f with
    | (1, WLen b) =>
        option_map (fun s => {| cw_seed := s; cw_left := cw_left m; cw_right := cw_right m; cw_values := cw_values m |})
          (sub_message parse_uint128 depth (cw_seed m) b)
    | (2, WVarint x) => Some {| cw_seed := cw_seed m; cw_left := negb (x =? 0); cw_right := cw_right m; cw_values := cw_values m |}
    | (3, WVarint x) => Some {| cw_seed := cw_seed m; cw_left := cw_left m; cw_right := negb (x =? 0); cw_values := cw_values m |}
    | (5, WLen b) =>
        option_map (fun v => {| cw_seed := cw_seed m; cw_left := cw_left m; cw_right := cw_right m; cw_values := cw_values m ++ [v] |})
          (sub_message parse_value depth PVUnset b)
    | _ => Some m
    end).
(** The default CorrectionWord, dpf/distributed_point_function.proto:114-125. *)
Definition default_cword : cword := {| cw_seed := 0; cw_left := false; cw_right := false; cw_values := [] |}.
(** An int32 from a varint: its lowest 32 bits (dpf/distributed_point_function.proto:136). *)
Definition int32_of (x : N) : Z := ((Z.of_N x + 2 ^ 31) mod 2 ^ 32 - 2 ^ 31)%Z.
(** DpfKey, dpf/distributed_point_function.proto:129-140. *)
Definition parse_key : nat -> dkey -> bytes -> option dkey :=
  parse_into (fun depth m f =>
    match f with
    | (1, WLen b) =>
        option_map (fun s => {| k_seed := Some s; k_cws := k_cws m; k_party := k_party m; k_last := k_last m |})
          (sub_message parse_uint128 depth (match k_seed m with Some s => s | None => 0 end) b)
    | (2, WLen b) =>
        option_map (fun cw => {| k_seed := k_seed m; k_cws := k_cws m ++ [cw]; k_party := k_party m; k_last := k_last m |})
          (sub_message parse_cword depth default_cword b)
    | (3, WVarint x) => Some {| k_seed := k_seed m; k_cws := k_cws m; k_party := int32_of x; k_last := k_last m |}
    | (5, WLen b) =>
        option_map (fun v => {| k_seed := k_seed m; k_cws := k_cws m; k_party := k_party m; k_last := k_last m ++ [v] |})
          (sub_message parse_value depth PVUnset b)
    | _ => Some m
    end).
(** DpfPirRequest.PlainRequest, pir/private_information_retrieval.proto:128-134. *)
Definition parse_plain : nat -> plain_request -> bytes -> option plain_request :=
  parse_into (fun depth m f =>
    match f with
    | (1, WLen b) =>
        option_map (fun k => {| pq_keys := pq_keys m ++ [k]; pq_fingerprint := pq_fingerprint m |})
          (sub_message parse_key depth default_key b)
    | (2, WFixed32 b) => Some {| pq_keys := pq_keys m; pq_fingerprint := le_decode b |}
    | _ => Some m
    end).
(** DpfPirRequest.HelperRequest, pir/private_information_retrieval.proto:150-153. *)
Definition parse_helper_into : nat -> helper_request -> bytes -> option helper_request :=
  parse_into (fun depth m f =>
    match f with
    | (1, WLen b) =>
        option_map (fun q => {| hq_plain := Some q; hq_seed := hq_seed m |})
          (sub_message parse_plain depth (match hq_plain m with Some q => q | None => default_plain end) b)
    | (2, WLen b) => Some {| hq_plain := hq_plain m; hq_seed := b |}
    | _ => Some m
    end).
(** ParseFromString of a HelperRequest, pir/dpf_pir_server.cc:168-172; [limit] is the limit of
    the protocol buffer library on the nesting of messages, 100 by default. *)
Definition parse_helper (limit : nat) (b : bytes) : option helper_request :=
  parse_helper_into limit {| hq_plain := None; hq_seed := [] |} b.
(** ParseFromString of a DpfKey, as an application does that stores or sends keys
    (dpf/distributed_point_function.proto:129-140). *)
Definition parse_dpf_key (limit : nat) (b : bytes) : option dkey := parse_key limit default_key b.
