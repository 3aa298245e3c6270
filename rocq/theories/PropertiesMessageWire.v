(** C88: the messages between the parties survive serialization. *)
From Coq Require Import List NArith ZArith Bool Lia ZifyBool ZifyNat ZifyN.
From Verif Require Import Base ListUtil ValueTypesModel ValueTypesSpec ValueTypesProofs TypeProofs DpfModel DpfTree DpfWf DpfSpec DpfExamples DpfPrivacySpec PropertiesPrivacy
  DcfModel DcfSpec DcfProofs MicProofs PropertiesDcf PropertiesMic
  PirDbModel PirSpec PirModel PirProtoSpec PirProtoProofs PirDenseProofs PropertiesPir PropertiesPirProto HashModel SparseModel SparseSpec SparseProofs SparseDbProofs PropertiesSparse
  PropertiesIpExact PropertiesPirOutcomes PropertiesPirSafety PropertiesPirEnd PropertiesPirExact PropertiesPirView WireModel ChannelExample KeyWireModel KeyWireSpec KeyWireProofs PropertiesKeyWire PropertiesKeyWirePir
  ContextWireModel ContextWireSpec ContextWireProofs MessageWireModel MessageWireSpec MessageWireProofs.
Import ListNotations.
Open Scope N_scope.

(** ** Round trips *)

(** A message, serialized and parsed again, is the same message, unless its messages are nested
    more deeply than the protocol buffer library allows, in which case it is rejected. *)
Definition survives {A} (write : A -> bytes) (parse : nat -> bytes -> option A) (depth : A -> nat) (x : A) : Prop :=
  N.of_nat (length (write x)) <= max_size -> forall limit,
  ((depth x <= limit)%nat -> parse limit (write x) = Some x) /\ ((limit < depth x)%nat -> parse limit (write x) = None).
Lemma survives_leb : forall A (write : A -> bytes) parse depth x,
  (N.of_nat (length (write x)) <= max_size -> forall d, parse d (write x) = if Nat.leb (depth x) d then Some x else None) -> survives write parse depth x.
Proof. intros A write parse depth x H HF limit. rewrite H by exact HF. split; intros HL; destruct (Nat.leb_spec (depth x) limit); try lia; reflexivity. Qed.
Theorem C88_request_exact : forall r, request_ok r -> survives write_request parse_request request_depth r.
Proof. intros r H. apply survives_leb. apply request_round. exact H. Qed.
Print Assumptions C88_request_exact.
Theorem C88_response_exact : forall r, survives write_response parse_response response_depth r.
Proof. intros r. apply survives_leb. apply response_round. Qed.
Print Assumptions C88_response_exact.
Theorem C88_state_exact : forall s, survives write_state parse_state state_depth s.
Proof. intros s. apply survives_leb. apply state_round. Qed.
Print Assumptions C88_state_exact.
Theorem C88_params_exact : forall p, public_params_ok p -> survives write_public_params parse_public_params public_params_depth p.
Proof. intros p H. apply survives_leb. apply public_params_round. exact H. Qed.
Print Assumptions C88_params_exact.
Theorem C88_dcf_key_exact : forall k, dkey_ok k -> survives write_dcf_key parse_dcf_key (fun k => S (key_depth k)) k.
Proof. intros k H. apply survives_leb. apply dcf_round. exact H. Qed.
Print Assumptions C88_dcf_key_exact.
Theorem C88_mic_key_exact : forall k, mic_key_ok k -> survives write_mic_key parse_mic_key mic_key_depth k.
Proof. intros k H. apply survives_leb. apply mic_key_round. exact H. Qed.
Print Assumptions C88_mic_key_exact.

(** Whatever bytes are received, the fields of the parsed messages are in the ranges of their types. *)
Theorem C88_parsed : forall limit b, is_bytes b ->
  (forall r, parse_request limit b = Some r -> request_ok r) /\
  (forall p, parse_public_params limit b = Some p -> public_params_ok p) /\
  (forall k, parse_dcf_key limit b = Some k -> dkey_ok k) /\
  (forall k, parse_mic_key limit b = Some k -> mic_key_ok k).
Proof.
  intros limit b HB. split; [|split; [|split]]; intros x H.
  - eapply request_parsed; eassumption.
  - eapply public_params_parsed; eassumption.
  - eapply dcf_parsed; [exact HB|exact default_key_ok|exact H].
  - eapply mic_key_parsed; eassumption.
Qed.
Print Assumptions C88_parsed.

(** ** Exchanges with servers behind a connection *)

(** The Leader and the Helper receive and return bytes, and the client keeps its state as bytes. *)
Definition served (limit : nat) : (request -> res response) -> request -> res response :=
  remote write_request (parse_request limit) write_response (parse_response limit).
Definition leader_of aes (ch : channel) hl (helper : request -> res response) : request -> res response :=
  handle_request aes (ch_par ch) hl (Leader (honest_sender helper)).
Definition helper_of aes (ch : channel) hh : request -> res response :=
  handle_request aes (ch_par ch) hh (Helper (ch_dec ch) (ch_context ch)).
Definition remote_exchange {A} (limit : nat) (aes : N -> N -> N) (ch : channel) (R : res (plain_request * helper_request * client_state))
    (hl hh : request -> res response) (f : response -> client_state -> res A) : res A :=
  '(req, state) <- create_request (ch_ser ch) (ch_enc ch) (ch_context ch) R ;;
  response <- served limit (leader_of aes ch hl (served limit (helper_of aes ch hh))) req ;;
  match parse_state limit (write_state state) with
  | Some state => f response state
  | None => Err INTERNAL
  end.
(** No message of an exchange is larger than protocol buffers can be. *)
Definition all_fit (aes : N -> N -> N) (ch : channel) (R : res (plain_request * helper_request * client_state)) (hl hh : request -> res response) : Prop :=
  forall req state, create_request (ch_ser ch) (ch_enc ch) (ch_context ch) R = Ok (req, state) ->
  N.of_nat (length (write_request req)) <= max_size /\ N.of_nat (length (write_state state)) <= max_size /\
  (forall r, leader_of aes ch hl (helper_of aes ch hh) req = Ok r -> N.of_nat (length (write_response r)) <= max_size) /\
  (forall p e r, req = RqLeader p (Some e) -> helper_of aes ch hh (RqHelper e) = Ok r -> N.of_nat (length (write_response r)) <= max_size).

Lemma served_same : forall limit h req, request_ok req -> (request_depth req <= limit)%nat -> (1 <= limit)%nat -> N.of_nat (length (write_request req)) <= max_size ->
  (forall r, h req = Ok r -> N.of_nat (length (write_response r)) <= max_size) -> served limit h req = h req.
Proof.
  intros limit h req HO HD HL HF HR. unfold served, remote. destruct (C88_request_exact req HO HF limit) as [-> _]; [|exact HD].
  destruct (h req) as [r| | |]; try reflexivity. cbn [bind]. destruct (C88_response_exact r (HR r eq_refl) limit) as [-> _]; [reflexivity|].
  destruct r; cbn [response_depth]; lia.
Qed.
Lemma leader_cong : forall aes ch hl h h' p e, h (RqHelper e) = h' (RqHelper e) -> leader_of aes ch hl h (RqLeader p (Some e)) = leader_of aes ch hl h' (RqLeader p (Some e)).
Proof. intros aes ch hl h h' p e H. unfold leader_of, handle_request, handle_leader_request, honest_sender. destruct p; [|reflexivity]. cbn [bind]. rewrite H. reflexivity. Qed.
Lemma varint_mono : forall fuel x y, x <= y -> (length (varint_encode fuel x) <= length (varint_encode fuel y))%nat.
Proof.
  induction fuel as [|fuel IH]; intros x y H; cbn [varint_encode]; [cbn; lia|]. destruct (N.ltb_spec x 128), (N.ltb_spec y 128); cbn [length]; try lia.
  specialize (IH (x / 128) (y / 128) ltac:(apply N.div_le_mono; lia)). lia.
Qed.
Lemma field_mono : forall t t' a b, (length a <= length b)%nat -> (length (encode_field t a) <= length (encode_field t' b))%nat.
Proof.
  intros t t' a b H. unfold encode_field. cbn [length]. rewrite !app_length. pose proof (varint_mono 10 (N.of_nat (length a)) (N.of_nat (length b)) ltac:(lia)). lia.
Qed.
Lemma helper_size : forall p e, (length (write_request (RqHelper e)) <= length (write_request (RqLeader p (Some e))))%nat.
Proof.
  intros p e. cbn [write_request]. apply field_mono, field_mono. unfold write_leader. cbn [write_optional]. rewrite app_length.
  unfold encode_field. cbn [length]. rewrite app_length. lia.
Qed.
(** Serialization on every connection and of the client's state changes nothing. *)
Lemma remote_same : forall (A : Type) limit aes ch R hl hh (f : response -> client_state -> res A), (8 <= limit)%nat ->
  (forall l h st, R = Ok (l, h, st) -> plain_ok l /\ Forall (fun k => (key_depth k <= 4)%nat) (pq_keys l)) -> all_fit aes ch R hl hh ->
  remote_exchange limit aes ch R hl hh f =
  ('(req, state) <- create_request (ch_ser ch) (ch_enc ch) (ch_context ch) R ;; response <- leader_of aes ch hl (helper_of aes ch hh) req ;; f response state).
Proof.
  intros A limit aes ch R hl hh f HL HR HF. unfold remote_exchange. destruct (create_request (ch_ser ch) (ch_enc ch) (ch_context ch) R) as [[req state]| | |] eqn:EC; try reflexivity.
  cbn [bind]. destruct (HF req state EC) as (F1 & F2 & F3 & F4). unfold create_request in EC. bind_inv EC. destruct a as [[l h] st]. bind_inv EC. unfold to_leader_request in Hb0. bind_inv Hb0.
  injection Hb0 as <-. injection EC as <- <-. destruct (HR l h st Hb) as [P1 P2].
  assert (HD : (plain_depth l <= 5)%nat). { unfold plain_depth. apply deepest_le. eapply Forall_impl; [|exact P2]. intros k Hk. cbv beta in Hk. lia. }
  destruct (C88_state_exact st F2 limit) as [-> _]; [|destruct st; cbn [state_depth]; lia].
  assert (HH : served limit (helper_of aes ch hh) (RqHelper a0) = helper_of aes ch hh (RqHelper a0)).
  { apply served_same; [exact I|cbn [request_depth]; lia|lia| |].
    - pose proof (helper_size (Some l) a0). lia.
    - intros r Hr. eapply F4; [reflexivity|exact Hr]. }
  rewrite served_same; [| |cbn [request_depth leader_depth]; unfold leader_depth; lia|lia|exact F1|].
  - rewrite (leader_cong aes ch hl _ _ (Some l) a0 HH). reflexivity.
  - intros q [= <-]. exact P1.
  - intros r Hr. rewrite (leader_cong aes ch hl _ _ (Some l) a0 HH) in Hr. apply F3. exact Hr.
Qed.

(** The exchanges of PropertiesPirEnd.v and SparseSpec.v with servers behind connections; the clients of
    sparse PIR get the public parameters as bytes. *)
Definition remote_dense (limit : nat) (aes : N -> N -> N) (F : fops) (clog : Z -> Z) (ch : channel) (n : Z)
    (t0 t1 : target) (d0 d1 : db) (queries : list Z) (seeds : nat -> N * N) (pad : bytes) : res (list bytes) :=
  c <- dense_client_create F clog (CfgDense n) true ;;
  s0 <- dense_create_plain F clog (CfgDense n) (Some d0) ;;
  s1 <- dense_create_plain F clog (CfgDense n) (Some d1) ;;
  remote_exchange limit aes ch (dense_create_plain_requests aes c queries seeds pad)
    (dense_handle_plain aes t0 s0) (dense_handle_plain aes t1 s1) (dense_handle_response aes).
Definition remote_cuckoo (limit : nat) (aes : N -> N -> N) (F : fops) (clog : Z -> Z) (sha : bytes -> bytes) (ch : channel) (p : cuckoo_params)
    (t0 t1 : target) (d0 d1 : cuckoo_db) (queries : list bytes) (seeds : nat -> N * N) (pad : bytes) : res (list (option bytes)) :=
  params <- match parse_public_params limit (write_public_params (PpCuckoo p)) with Some x => Ok x | None => Err INTERNAL end ;;
  c <- cuckoo_client_create sha F clog params true ;;
  s0 <- cuckoo_create_plain sha F clog p (Some d0) ;;
  s1 <- cuckoo_create_plain sha F clog p (Some d1) ;;
  remote_exchange limit aes ch (cuckoo_create_plain_requests aes c queries seeds pad)
    (cuckoo_handle_plain aes t0 s0) (cuckoo_handle_plain aes t1 s1) (cuckoo_handle_response aes c).
Definition remote_simple (limit : nat) (aes : N -> N -> N) (F : fops) (clog : Z -> Z) (sha : bytes -> bytes) (ch : channel) (p : simple_params)
    (t0 t1 : target) (d0 d1 : simple_db) (queries : list bytes) (seeds : nat -> N * N) (pad : bytes) : res (list (option bytes)) :=
  params <- match parse_public_params limit (write_public_params (PpSimple p)) with Some x => Ok x | None => Err INTERNAL end ;;
  c <- simple_client_create sha F clog params true ;;
  s0 <- simple_create_plain sha F clog p (Some d0) ;;
  s1 <- simple_create_plain sha F clog p (Some d1) ;;
  remote_exchange limit aes ch (simple_create_plain_requests aes c queries seeds pad)
    (simple_handle_plain aes t0 s0) (simple_handle_plain aes t1 s1) (simple_handle_response aes).

(** An exchange of dense PIR with servers behind connections is one in memory. *)
Theorem C88_dense : forall limit aes F clog ch n t0 t1 d0 d1 queries seeds pad, (8 <= limit)%nat ->
  on_blocks aes -> (forall i, fst (seeds i) < 2 ^ 128 /\ snd (seeds i) < 2 ^ 128) ->
  (forall c s0 s1, dense_client_create F clog (CfgDense n) true = Ok c -> dense_create_plain F clog (CfgDense n) (Some d0) = Ok s0 ->
     dense_create_plain F clog (CfgDense n) (Some d1) = Ok s1 ->
     all_fit aes ch (dense_create_plain_requests aes c queries seeds pad) (dense_handle_plain aes t0 s0) (dense_handle_plain aes t1 s1)) ->
  remote_dense limit aes F clog ch n t0 t1 d0 d1 queries seeds pad = dense_exchange aes F clog ch n t0 t1 d0 d1 queries seeds pad.
Proof.
  intros limit aes F clog ch n t0 t1 d0 d1 queries seeds pad HL HA Hs HF. unfold remote_dense, dense_exchange.
  destruct (dense_client_create F clog (CfgDense n) true) as [c| | |] eqn:EC; try reflexivity. cbn [bind].
  destruct (dense_create_plain F clog (CfgDense n) (Some d0)) as [s0| | |]; try reflexivity. cbn [bind].
  destruct (dense_create_plain F clog (CfgDense n) (Some d1)) as [s1| | |]; try reflexivity. cbn [bind].
  apply remote_same; [exact HL| |apply HF; reflexivity].
  intros l h st HR. destruct (dense_leader_fine F clog n c EC aes queries seeds pad l h st HA Hs HR) as (_ & P2 & P3 & _). split.
  - split; [|rewrite P2; reflexivity]. eapply Forall_impl; [|exact P3]. intros k H. apply H.
  - eapply Forall_impl; [|exact P3]. intros k H. apply H.
Qed.
Print Assumptions C88_dense.
Theorem C88_cuckoo : forall limit aes F clog sha ch p t0 t1 d0 d1 queries seeds pad, (8 <= limit)%nat ->
  on_blocks aes -> (forall i, fst (seeds i) < 2 ^ 128 /\ snd (seeds i) < 2 ^ 128) ->
  public_params_ok (PpCuckoo p) -> N.of_nat (length (write_public_params (PpCuckoo p))) <= max_size ->
  (forall c s0 s1, cuckoo_client_create sha F clog (PpCuckoo p) true = Ok c -> cuckoo_create_plain sha F clog p (Some d0) = Ok s0 ->
     cuckoo_create_plain sha F clog p (Some d1) = Ok s1 ->
     all_fit aes ch (cuckoo_create_plain_requests aes c queries seeds pad) (cuckoo_handle_plain aes t0 s0) (cuckoo_handle_plain aes t1 s1)) ->
  remote_cuckoo limit aes F clog sha ch p t0 t1 d0 d1 queries seeds pad = cuckoo_exchange aes F clog sha ch p t0 t1 d0 d1 queries seeds pad.
Proof.
  intros limit aes F clog sha ch p t0 t1 d0 d1 queries seeds pad HL HA Hs HP HPF HF. unfold remote_cuckoo, cuckoo_exchange.
  destruct (C88_params_exact (PpCuckoo p) HP HPF limit) as [-> _]; [|cbn [public_params_depth]; lia]. cbn [bind].
  destruct (cuckoo_client_create sha F clog (PpCuckoo p) true) as [c| | |] eqn:EC; try reflexivity. cbn [bind].
  destruct (cuckoo_create_plain sha F clog p (Some d0)) as [s0| | |]; try reflexivity. cbn [bind].
  destruct (cuckoo_create_plain sha F clog p (Some d1)) as [s1| | |]; try reflexivity. cbn [bind].
  apply remote_same; [exact HL| |apply HF; reflexivity]. clear HF. intros l h st HR.
  unfold cuckoo_client_create in EC. bind_inv EC. bind_inv EC. bind_inv EC. apply check_ok in Hb1. bind_inv EC. bind_inv EC. bind_inv EC. bind_inv EC. injection EC as <-.
  unfold cuckoo_create_plain_requests in HR. cbn [cc_dense cc_functions cc_buckets cc_fingerprint] in HR. bind_inv HR. bind_inv HR. destruct a7 as [[l1 h1] st1].
  cbn [add_fingerprint] in HR. injection HR as <- <- <-.
  destruct (dense_leader_fine F clog _ _ Hb5 aes _ seeds pad l1 h1 st1 HA Hs Hb7) as (_ & _ & P3 & _). cbn [pq_keys]. split.
  - split; cbn [pq_keys pq_fingerprint]; [|apply fingerprint_range]. eapply Forall_impl; [|exact P3]. intros k H. apply H.
  - eapply Forall_impl; [|exact P3]. intros k H. apply H.
Qed.
Print Assumptions C88_cuckoo.
Theorem C88_simple : forall limit aes F clog sha ch p t0 t1 d0 d1 queries seeds pad, (8 <= limit)%nat ->
  on_blocks aes -> (forall i, fst (seeds i) < 2 ^ 128 /\ snd (seeds i) < 2 ^ 128) ->
  public_params_ok (PpSimple p) -> N.of_nat (length (write_public_params (PpSimple p))) <= max_size ->
  (forall c s0 s1, simple_client_create sha F clog (PpSimple p) true = Ok c -> simple_create_plain sha F clog p (Some d0) = Ok s0 ->
     simple_create_plain sha F clog p (Some d1) = Ok s1 ->
     all_fit aes ch (simple_create_plain_requests aes c queries seeds pad) (simple_handle_plain aes t0 s0) (simple_handle_plain aes t1 s1)) ->
  remote_simple limit aes F clog sha ch p t0 t1 d0 d1 queries seeds pad = simple_exchange aes F clog sha ch p t0 t1 d0 d1 queries seeds pad.
Proof.
  intros limit aes F clog sha ch p t0 t1 d0 d1 queries seeds pad HL HA Hs HP HPF HF. unfold remote_simple, simple_exchange.
  destruct (C88_params_exact (PpSimple p) HP HPF limit) as [-> _]; [|cbn [public_params_depth]; lia]. cbn [bind].
  destruct (simple_client_create sha F clog (PpSimple p) true) as [c| | |] eqn:EC; try reflexivity. cbn [bind].
  destruct (simple_create_plain sha F clog p (Some d0)) as [s0| | |]; try reflexivity. cbn [bind].
  destruct (simple_create_plain sha F clog p (Some d1)) as [s1| | |]; try reflexivity. cbn [bind].
  apply remote_same; [exact HL| |apply HF; reflexivity]. clear HF. intros l h st HR.
  unfold simple_client_create in EC. bind_inv EC. bind_inv EC. bind_inv EC. bind_inv EC. bind_inv EC. bind_inv EC. bind_inv EC. injection EC as <-.
  unfold simple_create_plain_requests in HR. cbn [sc_dense sc_function sc_buckets sc_fingerprint] in HR. bind_inv HR. bind_inv HR. destruct a7 as [[l1 h1] st1].
  cbn [add_fingerprint] in HR. injection HR as <- <- <-.
  destruct (dense_leader_fine F clog _ _ Hb5 aes _ seeds pad l1 h1 st1 HA Hs Hb7) as (_ & _ & P3 & _). cbn [pq_keys]. split.
  - split; cbn [pq_keys pq_fingerprint]; [|apply fingerprint_range]. eapply Forall_impl; [|exact P3]. intros k H. apply H.
  - eapply Forall_impl; [|exact P3]. intros k H. apply H.
Qed.
Print Assumptions C88_simple.
(** The sizes of the messages of dense PIR. *)
Lemma strings_size : forall tag l l', same_shape l l' -> length (strings_field tag l) = length (strings_field tag l').
Proof.
  unfold same_shape, strings_field. intros tag. induction l as [|x l IH]; intros [|y l'] H; cbn [map] in H; try discriminate; [reflexivity|].
  inversion H as [[H1 H2]]. cbn [flat_map]. rewrite !app_length, (IH l' H2). unfold encode_field. cbn [length]. rewrite !app_length, H1. reflexivity.
Qed.
Lemma response_size_same : forall l l', same_shape l l' -> length (write_response (Some l)) = length (write_response (Some l')).
Proof.
  intros l l' H. unfold write_response. cbn [write_optional]. unfold encode_field. cbn [length]. rewrite !app_length, (strings_size 10 l l' H). reflexivity.
Qed.
(** The responses of Helper and Leader are as large as those to the plain requests in them. *)
Lemma helper_response_size : forall aes ch hh e m h r, ch_dec ch e (ch_context ch) = Ok m -> ch_par ch m = Some h -> length (hq_seed h) = 16%nat ->
  helper_of aes ch hh (RqHelper e) = Ok r ->
  exists r', hh (RqPlain (match hq_plain h with Some q => q | None => default_plain end)) = Ok r' /\ length (write_response r) = length (write_response r').
Proof.
  intros aes ch hh e m h r HD HP HS H. unfold helper_of, handle_request, handle_helper_request in H. rewrite HD in H. cbn [bind] in H. rewrite HP in H. cbn [bind] in H.
  bind_inv H. exists a. split; [exact Hb|]. destruct a as [l|].
  - pose proof (mask_created aes (hq_seed h) l HS) as HM. bind_inv H. rewrite Hb0 in HM. cbn [bind] in HM. rewrite HM in H. cbn [bind] in H. injection H as <-.
    apply response_size_same. apply xor_lists_shape. unfold same_shape. rewrite pads_shape. reflexivity.
  - bind_inv H. injection H as <-. reflexivity.
Qed.
Lemma leader_response_size : forall aes ch hl helper l e r, leader_of aes ch hl helper (RqLeader (Some l) (Some e)) = Ok r ->
  exists r', hl (RqPlain l) = Ok r' /\ length (write_response r) = length (write_response r').
Proof.
  intros aes ch hl helper l e r H. unfold leader_of, handle_request, handle_leader_request, honest_sender, while_waiting in H. cbn [bind] in H.
  destruct (hl (RqPlain l)) as [lr| | |]; cbn [bind] in H; try discriminate; try (destruct (helper (RqHelper e)); discriminate).
  bind_inv H. cbn [check bind] in H. bind_inv H. apply check_ok, Nat.eqb_eq in Hb0. exists lr. split; [reflexivity|]. destruct lr as [ll|]; [|injection H as <-; reflexivity].
  bind_inv H. injection H as <-. cbn [masked] in *. destruct (combine_ok _ _ _ Hb0 Hb1) as [S1 ->]. apply response_size_same. apply xor_lists_shape. exact S1.
Qed.
Lemma delivered_size : forall ch h overhead, delivers ch h ->
  (forall x, exists e, ch_enc ch x (ch_context ch) = Ok e /\ ch_dec ch e (ch_context ch) = Ok x /\ (length e <= length x + overhead)%nat) ->
  exists e, ch_enc ch (ch_ser ch h) (ch_context ch) = Ok e /\ ch_dec ch e (ch_context ch) = Ok (ch_ser ch h) /\ ch_par ch (ch_ser ch h) = Some h /\
    (length e <= length (ch_ser ch h) + overhead)%nat.
Proof.
  intros ch h overhead (e & D1 & D2 & D3) HE. exists e. split; [exact D1|]. split; [exact D2|]. split; [exact D3|].
  destruct (HE (ch_ser ch h)) as (e' & X1 & _ & X3). rewrite D1 in X1. injection X1 as <-. exact X3.
Qed.
Lemma fit_lemma : forall (clog : Z -> Z) (n : Z) limit encrypt decrypt context aes l q pad fp st hl hh m overhead,
  let h := {| hq_plain := Some {| pq_keys := pq_keys q; pq_fingerprint := fp |}; hq_seed := pad |} in
  (forall x, exists e, encrypt x context = Ok e /\ decrypt e context = Ok x /\ (length e <= length x + overhead)%nat) -> fp < 2 ^ 32 -> length pad = 16%nat ->
  Forall (fun k => dkey_ok k /\ (key_depth k <= 4)%nat /\ (Z.of_nat (length (write_key k)) <= 99 + 66 * clog n)%Z) (pq_keys l) -> length (pq_keys l) = m ->
  Forall (fun k => dkey_ok k /\ (key_depth k <= 4)%nat /\ (Z.of_nat (length (write_key k)) <= 99 + 66 * clog n)%Z) (pq_keys q) -> length (pq_keys q) = m ->
  (0 <= clog n)%Z -> (2 * request_size clog n m + Z.of_nat overhead <= Z.of_N max_size)%Z -> (6 <= limit)%nat ->
  N.of_nat (length (write_state st)) <= max_size ->
  (forall r, hl (RqPlain l) = Ok r -> N.of_nat (length (write_response r)) <= max_size) ->
  (forall r, hh (RqPlain {| pq_keys := pq_keys q; pq_fingerprint := fp |}) = Ok r -> N.of_nat (length (write_response r)) <= max_size) ->
  all_fit aes (wired limit encrypt decrypt context) (Ok (l, h, st)) hl hh.
Proof.
  intros clog n limit encrypt decrypt context aes l q pad fp st hl hh m overhead h HE Hfp Hpad HL Hl HQ Hq Hc HS Hlim HST HRl HRh req state HC.
  assert (HE' : forall x, exists e, encrypt x context = Ok e /\ decrypt e context = Ok x) by (intros x; destruct (HE x) as (e & A & B & _); exists e; auto).
  assert (Hr0 : (0 <= request_size clog n m)%Z) by (unfold request_size; lia).
  pose proof (request_delivered clog n limit encrypt decrypt context q pad fp m HE' Hfp ltac:(lia) HQ Hq Hc ltac:(lia) Hlim _ (or_intror eq_refl)) as HD.
  pose proof (helper_len clog n q pad fp m ltac:(lia) HQ Hq Hc _ (or_intror eq_refl)) as HB. fold h in HD, HB.
  assert (Hh : hq_plain h = Some {| pq_keys := pq_keys q; pq_fingerprint := fp |} /\ hq_seed h = pad) by (split; reflexivity). clearbody h. destruct Hh as [Hh1 Hh2].
  set (ch := wired limit encrypt decrypt context) in *.
  assert (HSer : ch_ser ch h = write_helper h).
  { change (ch_ser ch) with serialize_helper. unfold serialize_helper. replace (_ <? 2 ^ 31) with true; [reflexivity|]. unfold max_size in HS. change (2 ^ 31) with 2147483648 in *. lia. }
  destruct (delivered_size ch h overhead HD HE) as (e & D1 & D2 & D3 & X3). clearbody ch. rewrite HSer in X3.
  unfold create_request, to_leader_request in HC. cbn [bind] in HC. rewrite D1 in HC. cbn [bind] in HC. injection HC as <- <-.
  assert (HLP : (Z.of_nat (length (write_plain l)) <= Z.of_nat m * (110 + 66 * clog n) + 5)%Z).
  { replace l with {| pq_keys := pq_keys l; pq_fingerprint := pq_fingerprint l |} by (destruct l; reflexivity). apply plain_len; assumption. }
  split; [|split; [exact HST|split]].
  - cbn [write_request]. match goal with |- N.of_nat (length (encode_field 10 (encode_field 18 ?w))) <= _ => pose proof (field_len 10 (encode_field 18 w)) as Q1; pose proof (field_len 18 w) as Q2 end.
    unfold write_leader in *. cbn [write_optional] in *. rewrite app_length in Q2. pose proof (field_len 10 (write_plain l)) as Q3. pose proof (field_len 18 (write_encrypted e)) as Q4.
    assert (Q5 : (length (write_encrypted e) <= 11 + length e)%nat) by (unfold write_encrypted, bytes_field; destruct e; [cbn; lia|apply field_len]).
    unfold request_size in *. lia.
  - intros r Hr. destruct (leader_response_size _ _ _ _ _ _ _ Hr) as (r' & E1 & ->). apply HRl. exact E1.
  - intros p e0 r [= _ <-] Hr. rewrite <- Hh2 in Hpad. destruct (helper_response_size aes ch hh e _ h r D2 D3 Hpad Hr) as (r' & E1 & ->). rewrite Hh1 in E1. apply HRh. exact E1.
Qed.
(** C86_dense_records with servers behind connections, and with sizes in terms of the numbers of queries
    and elements and the longest record only. *)
Definition response_bytes (m size : nat) : Z := (Z.of_nat m * (11 + Z.of_nat size) + 11)%Z.
Lemma answers_size : forall records es, (Z.of_nat (length (write_response (Some (map (PropertiesPirOutcomes.answer records) es)))) <= response_bytes (length es) (longest records))%Z.
Proof.
  intros records es. unfold write_response, response_bytes. cbn [write_optional].
  match goal with |- (Z.of_nat (length (encode_field 10 ?w)) <= _)%Z => pose proof (field_len 10 w) as Q1; assert (Q2 : (length w <= length es * (11 + longest records))%nat) end; [|lia].
  unfold strings_field. pose proof (flat_len _ (encode_field 10) (map (PropertiesPirOutcomes.answer records) es) (11 + longest records)) as Q. rewrite map_length in Q. apply Q.
  apply Forall_map. apply Forall_forall. intros e _. pose proof (field_len 10 (PropertiesPirOutcomes.answer records e)). rewrite answer_length in *. lia.
Qed.
Theorem C88_dense_records : forall limit encrypt decrypt context overhead aes F clog records t0 t1 db0 db1 queries seeds pad,
  let n := Z.of_nat (length records) in
  (8 <= limit)%nat -> (forall x, exists e, encrypt x context = Ok e /\ decrypt e context = Ok x /\ (length e <= length x + overhead)%nat) ->
  on_blocks aes -> (forall i, fst (seeds i) < 2 ^ 128 /\ snd (seeds i) < 2 ^ 128) ->
  (2 * request_size clog n (length queries) + Z.of_nat overhead <= Z.of_N max_size)%Z ->
  (response_bytes (length queries) (longest records) <= Z.of_N max_size)%Z ->
  byte_records records -> (0 < n < 2147483648)%Z -> clog_ok clog n -> target_ok t0 -> target_ok t1 ->
  holds db0 records -> holds db1 records ->
  queries <> [] -> Forall (fun q => 0 <= q < n)%Z queries -> length pad = 16%nat ->
  exchange_outcome (all_empty records \/ (31 <= clog n)%Z) (overflows clog n t0 \/ overflows clog n t1)
    (map (fun q => zero_padded (longest records) (nth (Z.to_nat q) records [])) queries)
    (remote_dense limit aes F clog (wired limit encrypt decrypt context) n t0 t1 db0 db1 queries seeds pad).
Proof.
  intros limit encrypt decrypt context overhead aes F clog records t0 t1 db0 db1 queries seeds pad n Hl HE HA Hs HS HRs HB Hn HL T0 T1 H0 H1 Hne HQ Hpad.
  assert (HE' : forall x, exists e, encrypt x context = Ok e /\ decrypt e context = Ok x) by (intros x; destruct (HE x) as (e & A & B & _); exists e; auto).
  assert (Hr0 : (0 <= request_size clog n (length queries))%Z).
  { unfold request_size. assert (0 <= clog n)%Z by (unfold clog_ok in HL; pose proof (Z.log2_nonneg n); lia). lia. }
  rewrite C88_dense; [apply C86_dense_records; try assumption; fold n; lia|assumption..|].
  intros c s0 s1 Hc HS0 HS1. destruct (dense_create_plain_requests aes c queries seeds pad) as [[[l h] st]| | |] eqn:ER; try (intros req state HX; discriminate HX).
  destruct (dense_leader_fine F clog n c Hc aes queries seeds pad l h st HA Hs ER) as (P1 & P2 & P3 & P4).
  destruct (dense_helper_fine F clog n c Hc aes queries seeds pad l h st HA Hs ER) as (Q1 & Q2 & Q3 & Q4 & Q5).
  destruct h as [o p]. cbn [hq_seed hq_plain] in *. subst p st. destruct o as [[ks fp]|]; cbn [pq_keys pq_fingerprint default_plain] in *; [|destruct queries; [congruence|discriminate]]. subst fp.
  assert (HR : forall t s db q, target_ok t -> holds db records -> dense_create_plain F clog (CfgDense n) (Some db) = Ok s -> length (pq_keys q) = length queries ->
    forall r, dense_handle_plain aes t s (RqPlain q) = Ok r -> N.of_nat (length (write_response r)) <= max_size).
  { intros t s db q HT HH HSv Hlen r Hr. pose proof (C72_dense aes F clog n t records db s (RqPlain q) Hn HL HT HB HH HSv) as HX. rewrite Hr in HX.
    destruct HX as (plain & es & [= <-] & _ & HF2 & -> & _). apply Forall2_length in HF2. pose proof (answers_size records es). rewrite <- HF2, Hlen in *. lia. }
  apply (fit_lemma clog n limit encrypt decrypt context aes l {| pq_keys := ks; pq_fingerprint := 0 |} pad 0 (CsDense pad) _ _ (length queries) overhead); try assumption; try reflexivity; try lia.
  - cbn [write_state]. pose proof (field_len 10 (bytes_field 10 pad)) as W1. assert (W2 : (length (bytes_field 10 pad) <= 27)%nat) by (unfold bytes_field; destruct pad as [|x pad]; [cbn; lia|pose proof (field_len 10 (x :: pad)); lia]).
    unfold max_size. lia.
  - apply (HR t0 s0 db0); assumption.
  - apply (HR t1 s1 db1); assumption.
Qed.
Print Assumptions C88_dense_records.

(** C86_cuckoo_values and C86_simple_values with servers behind connections. *)
Theorem C88_cuckoo_values : forall limit encrypt decrypt context aes F clog sha rnd ops0 ops1 ak0 av0 ak1 av1 t0 t1 d0 d1 K V queries seeds pad,
  let p := gs_params (gcrun ops0) in
  let ch := wired limit encrypt decrypt context in
  (8 <= limit)%nat -> (forall x, exists e, encrypt x context = Ok e /\ decrypt e context = Ok x) ->
  on_blocks aes -> (forall i, fst (seeds i) < 2 ^ 128 /\ snd (seeds i) < 2 ^ 128) ->
  (request_size clog (cp_buckets p) (length queries * Z.to_nat (cp_functions p)) <= Z.of_N max_size)%Z ->
  public_params_ok (PpCuckoo p) -> N.of_nat (length (write_public_params (PpCuckoo p))) <= max_size ->
  (forall c s0 s1, cuckoo_client_create sha F clog (PpCuckoo p) true = Ok c -> cuckoo_create_plain sha F clog p (Some d0) = Ok s0 ->
     cuckoo_create_plain sha F clog p (Some d1) = Ok s1 ->
     all_fit aes ch (cuckoo_create_plain_requests aes c queries seeds pad) (cuckoo_handle_plain aes t0 s0) (cuckoo_handle_plain aes t1 s1)) ->
  cuckoo_setup clog sha rnd xq_channel ops0 ops1 ak0 av0 ak1 av1 t0 t1 d0 d1 K V ->
  queries <> [] -> length pad = 16%nat ->
  exists answers, remote_cuckoo limit aes F clog sha ch p t0 t1 d0 d1 queries seeds pad = Ok answers /\
    Forall2 (fun q a =>
      let b := bucket sha (hf_seed (cp_hash p)) (cp_buckets p) q in
      match a with
      | Some w => exists j, (j < Z.to_nat (cp_functions p))%nat /\ (b j < length K)%nat /\ agrees K q (b j) /\
                    (forall j', (j' < j)%nat -> ~ agrees K q (b j')) /\ w = zero_padded (longest V) (nth (b j) V [])
      | None => forall j, (j < Z.to_nat (cp_functions p))%nat -> ~ agrees K q (b j)
      end) queries answers.
Proof.
  intros limit encrypt decrypt context aes F clog sha rnd ops0 ops1 ak0 av0 ak1 av1 t0 t1 d0 d1 K V queries seeds pad p ch Hl HE HA Hs HS HP HPF HF HU Hne Hpad.
  rewrite C88_cuckoo by assumption. eapply C86_cuckoo_values; try eassumption. lia.
Qed.
Print Assumptions C88_cuckoo_values.
Theorem C88_simple_values : forall limit encrypt decrypt context aes F clog sha ops0 ops1 a0 a1 d0 d1 t0 t1 queries seeds pad,
  let g := gsrun ops0 in let p := gs_params g in let kvs := gs_records g in
  let ch := wired limit encrypt decrypt context in
  (8 <= limit)%nat -> (forall x, exists e, encrypt x context = Ok e /\ decrypt e context = Ok x) ->
  on_blocks aes -> (forall i, fst (seeds i) < 2 ^ 128 /\ snd (seeds i) < 2 ^ 128) ->
  (request_size clog (sp_buckets p) (length queries) <= Z.of_N max_size)%Z ->
  public_params_ok (PpSimple p) -> N.of_nat (length (write_public_params (PpSimple p))) <= max_size ->
  (forall c s0 s1, simple_client_create sha F clog (PpSimple p) true = Ok c -> simple_create_plain sha F clog p (Some d0) = Ok s0 ->
     simple_create_plain sha F clog p (Some d1) = Ok s1 ->
     all_fit aes ch (simple_create_plain_requests aes c queries seeds pad) (simple_handle_plain aes t0 s0) (simple_handle_plain aes t1 s1)) ->
  (forall x, length (sha x) = 32%nat) -> alloc_ok a0 -> alloc_ok a1 ->
  Forall (fun kv => is_bytes (fst kv) /\ is_bytes (snd kv)) kvs ->
  gs_params (gsrun ops1) = p -> gs_records (gsrun ops1) = kvs ->
  simple_build sha a0 (srun ops0) = Ok d0 -> simple_build sha a1 (srun ops1) = Ok d1 ->
  (0 < sp_buckets p < 2147483648)%Z -> clog_ok clog (sp_buckets p) -> target_ok t0 -> target_ok t1 ->
  queries <> [] -> length pad = 16%nat ->
  exchange_outcome (kvs = [] \/ (31 <= clog (sp_buckets p))%Z) (overflows clog (sp_buckets p) t0 \/ overflows clog (sp_buckets p) t1)
    (map (first_value kvs) queries)
    (remote_simple limit aes F clog sha ch p t0 t1 d0 d1 queries seeds pad).
Proof.
  intros limit encrypt decrypt context aes F clog sha ops0 ops1 a0 a1 d0 d1 t0 t1 queries seeds pad g p kvs ch Hl HE HA Hs HS HP HPF HF Hsha A0 A1 Hb E1 E2 B0 B1 Hn HL T0 T1 Hne Hpad.
  rewrite C88_simple by assumption. apply (C86_simple_values limit encrypt decrypt context aes F clog sha ops0 ops1 a0 a1); try assumption. lia.
Qed.
Print Assumptions C88_simple_values.

(** ** Keys of DCFs and gates *)

(** Every generated key of a DCF survives serialization if its value type is not nested too deeply
    and it is not larger than a message can be. *)
Theorem C88_dcf_generated : forall aes F p types c T alpha beta seed0 seed1 k0 k1 limit,
  dcf_created F p types c -> dcf_has p T -> on_blocks aes -> seed0 < 2 ^ 128 -> seed1 < 2 ^ 128 -> alpha < 2 ^ 128 ->
  dcf_generate_keys aes c alpha beta seed0 seed1 = Ok (k0, k1) -> (3 + type_depth T <= limit)%nat ->
  forall k, k = k0 \/ k = k1 -> dkey_ok k /\ (key_depth k <= 2 + type_depth T)%nat /\
  (N.of_nat (length (write_dcf_key k)) <= max_size -> parse_dcf_key limit (write_dcf_key k) = Some k).
Proof.
  intros aes F p types c T alpha beta seed0 seed1 k0 k1 limit HD [_ HT] HA H0 H1 Ha HG HL k Hk.
  pose proof (proj1 (dcf_created_facts F p types c HD)) as HC. unfold dcf_generate_keys in HG. bind_inv HG.
  assert (Hal : N.shiftr alpha 1 < 2 ^ 128). { rewrite N.shiftr_div_pow2. eapply N.le_lt_trans; [|exact Ha]. apply N.div_le_upper_bound; [discriminate|]. change (2 ^ 1) with 2. lia. }
  destruct (C47_shape F _ _ _ HC _ _ _ _ _ _ _ Hal HG) as [S0 S1]. destruct (C47_blocks F _ _ _ HC _ _ _ _ _ _ _ Hal HA H0 H1 HG) as [B0 B1].
  assert (HTd : forall h T', level_has (dcf_dpf_parameters p) h T' -> (type_depth T' <= type_depth T)%nat).
  { intros h T' (_ & q & Hq & Hd). unfold dcf_dpf_parameters in Hq. rewrite nth_error_map in Hq. destruct (nth_error _ h); [|discriminate]. injection Hq as <-.
    cbn [p_type p_vt] in Hd. rewrite (denotes_fun _ _ _ Hd HT). lia. }
  assert (G : dkey_ok k /\ (key_depth k <= 2 + type_depth T)%nat).
  { destruct Hk as [-> | ->]; eapply shape_fine; try eassumption; [left; reflexivity|right; reflexivity]. }
  destruct G as [G1 G2]. split; [exact G1|]. split; [exact G2|]. intros HF. apply (C88_dcf_key_exact k G1 HF limit). lia.
Qed.
Print Assumptions C88_dcf_generated.
Lemma u128_integer_fine : forall x, vinteger_ok (u128_integer x) /\ (vinteger_depth (u128_integer x) <= 1)%nat.
Proof. intros x. unfold u128_integer, hi64, lo64. cbn [vinteger_ok vinteger_depth]. repeat split; try lia; apply N.mod_lt; discriminate. Qed.
(** Every generated key of a multiple interval containment gate that is not larger than a message can
    be survives serialization. *)
Theorem C88_mic_generated : forall aes F mp m r_in r_out seed0 seed1 rnd k0 k1 limit,
  mic_create F mp = Ok m -> on_blocks aes -> seed0 < 2 ^ 128 -> seed1 < 2 ^ 128 ->
  mic_gen aes m r_in r_out seed0 seed1 rnd = Ok (k0, k1) -> (6 <= limit)%nat ->
  forall k, k = k0 \/ k = k1 -> N.of_nat (length (write_mic_key k)) <= max_size -> parse_mic_key limit (write_mic_key k) = Some k.
Proof.
  intros aes F mp m r_in r_out seed0 seed1 rnd k0 k1 limit HM HA H0 H1 HG HL k Hk HF.
  assert (HM' := HM). unfold mic_create in HM'. bind_inv HM'. bind_inv HM'. bind_inv HM'. injection HM' as <-. apply check_ok in Hb.
  unfold mic_gen in HG. cbn [m_params m_dcf] in HG. bind_inv HG. bind_inv HG. bind_inv HG. bind_inv HG. destruct a5 as [d0 d1]. injection HG as E0 E1.
  assert (Hg : w128 (group_of {| m_params := mp; m_dcf := a1 |} - 1 + r_in) mod group_of {| m_params := mp; m_dcf := a1 |} < 2 ^ 128).
  { eapply N.le_lt_trans; [apply N.mod_le; apply N.pow_nonzero; discriminate|]. unfold w128. apply N.mod_lt. discriminate. }
  assert (HD : dcf_created F {| p_ld := mp_log mp; p_vt := Some (to_value_type (TInt 128)); p_sec := DFin (QArith_base.Qmake 0 1) |} [TInt 128] (dcf_register (TInt 128) a1)).
  { exists a1. split; [exact Hb1|]. split; [repeat constructor|reflexivity]. }
  assert (HS : Forall (fun s => (vinteger_ok (fst s) /\ (vinteger_depth (fst s) <= 1)%nat) /\ (vinteger_ok (snd s) /\ (vinteger_depth (snd s) <= 1)%nat))
    (zip2 (fun (ir : nat * interval) r => (u128_integer (w128 (rnd (fst ir)) mod group_of {| m_params := mp; m_dcf := a1 |}),
       u128_integer (w128 (mic_correction (group_of {| m_params := mp; m_dcf := a1 |}) r_in r (snd ir) + P128 - w128 (rnd (fst ir)) mod group_of {| m_params := mp; m_dcf := a1 |}) mod group_of {| m_params := mp; m_dcf := a1 |})))
       (combine (seq 0 (length (mp_intervals mp))) (mp_intervals mp)) r_out)).
  { generalize (combine (seq 0 (length (mp_intervals mp))) (mp_intervals mp)). clear. intros l. revert r_out. induction l as [|x l IH]; intros [|r rs]; cbn [zip2]; constructor; [|apply IH].
    cbn [fst snd]. split; apply u128_integer_fine. }
  assert (K : forall d sel, d = d0 \/ d = d1 ->
    (forall s : vinteger * vinteger, (vinteger_ok (fst s) /\ (vinteger_depth (fst s) <= 1)%nat) /\ (vinteger_ok (snd s) /\ (vinteger_depth (snd s) <= 1)%nat) -> vinteger_ok (sel s) /\ (vinteger_depth (sel s) <= 1)%nat) ->
    forall l, Forall (fun s => (vinteger_ok (fst s) /\ (vinteger_depth (fst s) <= 1)%nat) /\ (vinteger_ok (snd s) /\ (vinteger_depth (snd s) <= 1)%nat)) l ->
    mic_key_ok {| mk_dcf := d; mk_shares := map sel l |} /\ (mic_key_depth {| mk_dcf := d; mk_shares := map sel l |} <= 6)%nat).
  { intros d sel Hd Hsel l Hl. unfold dcf_generate_keys_t in Hb5.
    destruct (C88_dcf_generated aes F _ _ _ (TInt 128) _ _ _ _ _ _ 100 HD (conj eq_refl (denotes_int 128)) HA H0 H1 Hg Hb5 ltac:(cbn [type_depth]; lia) d Hd) as (D1 & D2 & _).
    cbn [type_depth] in D2. split.
    - split; [exact D1|]. cbn [mk_shares]. apply Forall_map. eapply Forall_impl; [|exact Hl]. intros s Hs. apply Hsel. exact Hs.
    - unfold mic_key_depth. cbn [mk_dcf mk_shares]. assert (deepest vinteger_depth (map sel l) <= 6)%nat; [|lia].
      apply deepest_le. apply Forall_map. eapply Forall_impl; [|exact Hl]. intros s Hs. specialize (Hsel s Hs). lia. }
  assert (KK : mic_key_ok k /\ (mic_key_depth k <= 6)%nat).
  { destruct Hk as [-> | ->]; [rewrite <- E0|rewrite <- E1]; apply K; auto; intros s Hs; tauto. }
  destruct KK as [K1 K2]. apply (C88_mic_key_exact k K1 HF limit). lia.
Qed.
Print Assumptions C88_mic_generated.

(** The public parameters of the sparse servers survive serialization. *)
Theorem C88_generated_params : forall scale seed family n limit, (- 2 ^ 31 <= family < 2 ^ 31)%Z -> (n < 2 ^ 63)%Z -> (2 <= limit)%nat ->
  (forall p, cuckoo_generate_params scale seed (CfgCuckoo family n) = Ok p -> (- 2 ^ 63 <= scale n < 2 ^ 63)%Z ->
     N.of_nat (length (write_public_params (PpCuckoo p))) <= max_size -> parse_public_params limit (write_public_params (PpCuckoo p)) = Some (PpCuckoo p)) /\
  (forall p, simple_generate_params seed (CfgSimple family n) = Ok p ->
     N.of_nat (length (write_public_params (PpSimple p))) <= max_size -> parse_public_params limit (write_public_params (PpSimple p)) = Some (PpSimple p)).
Proof.
  intros scale seed family n limit Hf Hn HL. split; intros p HG.
  - intros Hs HF. unfold cuckoo_generate_params in HG. bind_inv HG. bind_inv HG. injection HG as <-.
    apply (C88_params_exact (PpCuckoo _)); [|exact HF|exact HL]. cbn [public_params_ok cp_hash cp_functions cp_buckets hf_family]. split; [exact Hf|]. split; [vm_compute; split; congruence|exact Hs].
  - intros HF. unfold simple_generate_params in HG. bind_inv HG. apply check_ok in Hb. bind_inv HG. injection HG as <-.
    apply (C88_params_exact (PpSimple _)); [|exact HF|exact HL]. cbn [public_params_ok sp_hash sp_buckets hf_family]. split; [exact Hf|]. unfold int64_ok. change (2 ^ 63)%Z with 9223372036854775808%Z in *. lia.
Qed.
Print Assumptions C88_generated_params.

(** ** Examples *)

(** [all_fit], computed. *)
Definition fits_b (b : bytes) : bool := N.of_nat (length b) <=? max_size.
Definition all_fit_b (aes : N -> N -> N) (ch : channel) (R : res (plain_request * helper_request * client_state)) (hl hh : request -> res response) : bool :=
  match create_request (ch_ser ch) (ch_enc ch) (ch_context ch) R with
  | Ok (req, state) =>
      fits_b (write_request req) && fits_b (write_state state) &&
      match leader_of aes ch hl (helper_of aes ch hh) req with Ok r => fits_b (write_response r) | _ => true end &&
      match req with
      | RqLeader _ (Some e) => match helper_of aes ch hh (RqHelper e) with Ok r => fits_b (write_response r) | _ => true end
      | _ => true
      end
  | _ => true
  end.
Lemma all_fit_b_ok : forall aes ch R hl hh, all_fit_b aes ch R hl hh = true -> all_fit aes ch R hl hh.
Proof.
  intros aes ch R hl hh H req state E. unfold all_fit_b in H. rewrite E in H. apply andb_prop in H. destruct H as [H H4]. apply andb_prop in H. destruct H as [H H3].
  apply andb_prop in H. destruct H as [H1 H2]. split; [apply N.leb_le; exact H1|]. split; [apply N.leb_le; exact H2|]. split.
  - intros r Hr. rewrite Hr in H3. apply N.leb_le. exact H3.
  - intros p e r -> Hr. cbv beta iota in H4. rewrite Hr in H4. apply N.leb_le. exact H4.
Qed.
(** The hypotheses of C88_dense_records hold for five records; the records are then returned, also if
    computed. *)
Definition xw_ch (limit : nat) : channel := wired limit ch_encrypt ch_decrypt [7].
Definition xw_build : res db := Eval vm_compute in fst (build xa_alloc (fold_left insert xp_five new_builder)).
Definition xw_fit (limit : nat) : bool :=
  match xw_build with
  | Ok db =>
      match dense_client_create ex_F xp_clog (CfgDense 5) true, dense_create_plain ex_F xp_clog (CfgDense 5) (Some db) with
      | Ok c, Ok s => all_fit_b ex_aes (xw_ch limit) (dense_create_plain_requests ex_aes c [4; 2; 1]%Z xk_seeds xp_seed) (dense_handle_plain ex_aes xt_t s) (dense_handle_plain ex_aes xp_scalar s)
      | _, _ => false
      end
  | _ => false
  end.
Example C88_nonvacuous :
  match xw_build with
  | Ok db =>
      holds db xp_five /\ clog_ok xp_clog 5 /\ (2 * request_size xp_clog 5 3 + 1 <= Z.of_N max_size)%Z /\
      (response_bytes 3 (longest xp_five) <= Z.of_N max_size)%Z /\
      (forall x, exists e, ch_encrypt x [7] = Ok e /\ ch_decrypt e [7] = Ok x /\ (length e <= length x + 1)%nat) /\
      (forall c s0 s1, dense_client_create ex_F xp_clog (CfgDense 5) true = Ok c -> dense_create_plain ex_F xp_clog (CfgDense 5) (Some db) = Ok s0 ->
         dense_create_plain ex_F xp_clog (CfgDense 5) (Some db) = Ok s1 ->
         all_fit ex_aes (xw_ch 8) (dense_create_plain_requests ex_aes c [4; 2; 1]%Z xk_seeds xp_seed) (dense_handle_plain ex_aes xt_t s0) (dense_handle_plain ex_aes xp_scalar s1)) /\
      remote_dense 8 ex_aes ex_F xp_clog (xw_ch 8) 5 xt_t xp_scalar db db [4; 2; 1]%Z xk_seeds xp_seed = Ok [[255; 0; 3] ++ repeat 0 15; repeat 77 18; repeat 0 18] /\
      remote_dense 6 ex_aes ex_F xp_clog (xw_ch 100) 5 xt_t xp_scalar db db [4; 2; 1]%Z xk_seeds xp_seed = Err INTERNAL
  | _ => False
  end.
Proof.
  assert (HF : xw_fit 8 = true) by (vm_compute; reflexivity). unfold xw_fit in HF.
  assert (HH : match xw_build with Ok db => holds db xp_five | _ => False end) by (unfold xw_build; solve_holds).
  assert (HR : match xw_build with Ok db =>
      remote_dense 8 ex_aes ex_F xp_clog (xw_ch 8) 5 xt_t xp_scalar db db [4; 2; 1]%Z xk_seeds xp_seed = Ok [[255; 0; 3] ++ repeat 0 15; repeat 77 18; repeat 0 18] /\
      remote_dense 6 ex_aes ex_F xp_clog (xw_ch 100) 5 xt_t xp_scalar db db [4; 2; 1]%Z xk_seeds xp_seed = Err INTERNAL | _ => False end) by (vm_compute; split; reflexivity).
  destruct xw_build as [db| | |]; try contradiction. split; [exact HH|]. split; [apply xp_clog_ok; reflexivity|]. split; [vm_compute; discriminate|]. split; [vm_compute; discriminate|].
  split; [intros x; destruct (ch_cipher x [7]) as (e & E1 & E2); exists e; split; [exact E1|]; split; [exact E2|]; injection E1 as <-; rewrite app_length, map_length; reflexivity|].
  split; [|exact HR]. intros c s0 s1 Hc H0 H1. rewrite Hc, H0 in HF. rewrite H0 in H1. injection H1 as <-. apply all_fit_b_ok. exact HF.
Qed.
(** Sparse exchanges behind connections, computed. *)
Example C88_sparse_computed :
  match xq_db, xq_db1, xr_db with
  | Ok d0, Ok d1, Ok d =>
      public_params_ok (PpCuckoo (xq_params 4)) /\ public_params_ok (PpSimple xr_params) /\
      remote_cuckoo 8 ex_aes ex_F xp_clog xq_sha (xw_ch 8) (xq_params 4) xt_t xp_scalar d0 d1 [[99]; [98]; [97; 98]] xk_seeds xp_seed
      = Ok [Some [4; 0; 0]; None; Some [1; 2; 3]] /\
      remote_simple 8 ex_aes ex_F xp_clog xq_sha (xw_ch 8) xr_params xt_t xp_scalar d d [[97]; [97; 0]; [98]] xk_seeds xp_seed
      = Ok [Some [5; 0; 0]; Some []; Some [7]]
  | _, _, _ => False
  end.
Proof.
  assert (H : match xq_db, xq_db1, xr_db with Ok d0, Ok d1, Ok d =>
      remote_cuckoo 8 ex_aes ex_F xp_clog xq_sha (xw_ch 8) (xq_params 4) xt_t xp_scalar d0 d1 [[99]; [98]; [97; 98]] xk_seeds xp_seed
      = Ok [Some [4; 0; 0]; None; Some [1; 2; 3]] /\
      remote_simple 8 ex_aes ex_F xp_clog xq_sha (xw_ch 8) xr_params xt_t xp_scalar d d [[97]; [97; 0]; [98]] xk_seeds xp_seed
      = Ok [Some [5; 0; 0]; Some []; Some [7]] | _, _, _ => False end) by (vm_compute; split; reflexivity).
  destruct xq_db; try contradiction. destruct xq_db1; try contradiction. destruct xr_db; try contradiction.
  split; [|split; [|exact H]]; vm_compute; repeat split; congruence.
Qed.
(** Messages with all fields at their limits, parsed again; and the bytes of a request. *)
Definition xw_key : dkey := match xm_gs with g :: _ => mk_dcf (mg_key1 g) | [] => default_key end.
Definition xw_mic : mic_key := match xm_gs with g :: _ => mg_key1 g | [] => {| mk_dcf := default_key; mk_shares := [] |} end.
Definition xw_params : public_params := PpCuckoo {| cp_hash := {| hf_family := (- 2 ^ 31)%Z; hf_seed := [0; 255] |}; cp_functions := -1; cp_buckets := (2 ^ 63 - 1)%Z |}.
Example C88_messages_computed :
  mic_key_ok xw_mic /\ length (mk_shares xw_mic) = 3%nat /\ parse_mic_key 6 (write_mic_key xw_mic) = Some xw_mic /\ parse_mic_key 5 (write_mic_key xw_mic) = None /\
  parse_dcf_key 5 (write_dcf_key xw_key) = Some xw_key /\ parse_dcf_key 4 (write_dcf_key xw_key) = None /\
  public_params_ok xw_params /\ parse_public_params 2 (write_public_params xw_params) = Some xw_params /\ parse_public_params 1 (write_public_params xw_params) = None /\
  parse_state 1 (write_state (CsSimple xp_seed [[]; [1]])) = Some (CsSimple xp_seed [[]; [1]]) /\
  parse_response 1 (write_response (Some [[3; 0]; []])) = Some (Some [[3; 0]; []]) /\ parse_response 0 (write_response (Some [])) = None /\
  write_request (RqLeader (Some {| pq_keys := []; pq_fingerprint := 258 |}) (Some [9])) = [10; 14; 18; 12; 10; 5; 21; 2; 1; 0; 0; 18; 3; 10; 1; 9].
Proof.
  assert (HB : forallb (fun b => b <? 256) (write_mic_key xw_mic) = true) by (vm_compute; reflexivity).
  assert (HM : parse_mic_key 6 (write_mic_key xw_mic) = Some xw_mic) by (vm_compute; reflexivity).
  split; [apply (mic_key_parsed 6 (write_mic_key xw_mic)); [|exact HM]; apply Forall_forall; intros b Hb; apply N.ltb_lt; exact (proj1 (forallb_forall _ _) HB b Hb)|].
  split; [reflexivity|]. split; [exact HM|]. split; [vm_compute; reflexivity|]. split; [vm_compute; reflexivity|]. split; [vm_compute; reflexivity|].
  split; [vm_compute; repeat split; congruence|]. repeat (split; [vm_compute; reflexivity|]). vm_compute. reflexivity.
Qed.
