(** C86: private information retrieval with requests that are serialized and parsed. *)
From Coq Require Import List NArith ZArith Bool Lia ZifyBool ZifyNat ZifyN.
From Verif Require Import Base ListUtil ValueTypesModel ValueTypesSpec ValueTypesProofs TypeProofs DpfModel DpfTree DpfWf DpfSpec DpfExamples DpfPrivacySpec PropertiesPrivacy
  PirDbModel PirSpec PirModel PirProtoSpec PirProtoProofs PirDenseProofs PropertiesPir PropertiesPirProto HashModel SparseModel SparseSpec SparseProofs SparseDbProofs PropertiesSparse
  PropertiesIpExact PropertiesPirOutcomes PropertiesPirSafety PropertiesPirEnd PropertiesPirExact WireModel ChannelExample KeyWireModel KeyWireSpec KeyWireProofs PropertiesKeyWire.
Import ListNotations.
Open Scope N_scope.

(** The channel from the client to the Helper with the serialization of the protocol buffer library. *)
Definition wired (limit : nat) (encrypt decrypt : bytes -> bytes -> res bytes) (context : bytes) : channel :=
  {| ch_ser := serialize_helper; ch_par := parse_helper limit; ch_enc := encrypt; ch_dec := decrypt; ch_context := context |}.

(** ** Sizes *)
Lemma varint_len : forall fuel x, (length (varint_encode fuel x) <= fuel)%nat.
Proof. induction fuel as [|fuel IH]; intros x; cbn [varint_encode]; [cbn; lia|]. destruct (x <? 128); cbn [length]; [lia|]. specialize (IH (x / 128)). lia. Qed.
Lemma field_len : forall tag b, (length (encode_field tag b) <= 11 + length b)%nat.
Proof. intros tag b. unfold encode_field. cbn [length]. rewrite app_length. pose proof (varint_len 10 (N.of_nat (length b))). lia. Qed.
Lemma number_len : forall tag x, (length (number_field tag x) <= 11)%nat.
Proof. intros tag x. unfold number_field. destruct (x =? 0); cbn [length]; [lia|]. pose proof (varint_len 10 x). lia. Qed.
Lemma uint128_len : forall x, (length (write_uint128 x) <= 22)%nat.
Proof. intros x. unfold write_uint128, write_block. rewrite app_length. pose proof (number_len 8 (hi64 x)). pose proof (number_len 16 (lo64 x)). lia. Qed.
Lemma vinteger_len : forall v, (length (write_vinteger v) <= 33)%nat.
Proof.
  intros [|x|h l]; cbn [write_vinteger length]; [lia|pose proof (varint_len 10 x); lia|].
  pose proof (field_len 18 (write_block h l)). unfold write_block in *. rewrite app_length in H. pose proof (number_len 8 h). pose proof (number_len 16 l). lia.
Qed.
Lemma flat_len : forall (A : Type) (w : A -> bytes) l n, Forall (fun x => (length (w x) <= n)%nat) l -> (length (flat_map w l) <= length l * n)%nat.
Proof. intros A w l n H. induction H; cbn [flat_map length]; [lia|]. rewrite app_length. lia. Qed.

Lemma mapM_combine : forall (A B C : Type) (P : C -> Prop) (f : A * B -> res C) ix qs ks, length ix = length qs -> mapM f (combine ix qs) = Ok ks ->
  (forall i q k, In q qs -> f (i, q) = Ok k -> P k) -> Forall P ks /\ length ks = length qs.
Proof.
  intros A B C P f ix qs. revert ix. induction qs as [|q qs IH]; intros [|i ix] ks HL H HP; try discriminate; cbn [combine mapM] in H.
  - inversion H. split; [constructor|reflexivity].
  - bind_inv H. bind_inv H. inversion H; subst. destruct (IH ix a0) as [M1 M2]; [injection HL as HL; exact HL|exact Hb0|intros; eapply HP; [right; eassumption|eassumption]|].
    split; [constructor; [|exact M1]|cbn [length]; rewrite M2; reflexivity]. eapply HP; [left; reflexivity|exact Hb].
Qed.

(** ** The keys of the dense client *)
Section Keys.
Variables (F : fops) (clog : Z -> Z) (n : Z) (c : dense_client).
Hypothesis HCr : dense_client_create F clog (CfgDense n) true = Ok c.
Let d' := register_value_type block_type (dc_dpf c).
Lemma client_created : created F (dense_params clog n) [block_type] d' /\ (0 < n)%Z /\ dc_size c = to_int32 n.
Proof.
  pose proof HCr as H. unfold dense_client_create in H. bind_inv H. apply check_ok in Hb. bind_inv H. bind_inv H. unfold d'. clear HCr d'. injection H as <-. cbn [dc_dpf dc_size].
  split; [apply dense_created; assumption|]. split; [lia|reflexivity].
Qed.
Lemma dense_key_fine : forall aes q seeds k0 k1, on_blocks aes -> fst seeds < 2 ^ 128 -> snd seeds < 2 ^ 128 -> (0 <= q < to_int32 n)%Z ->
  dense_keys aes (dc_dpf c) q seeds = Ok (k0, k1) ->
  forall k, k = k0 \/ k = k1 -> dkey_ok k /\ (key_depth k <= 4)%nat /\ (Z.of_nat (length (write_key k)) <= 99 + 66 * clog n)%Z.
Proof.
  intros aes q seeds k0 k1 HA H0 H1 Hq HK k Hk. destruct client_created as (HC & Hn & _). unfold dense_keys in HK. fold d' in HK.
  assert (Hal : Z.to_N (Z.quot q 128) < 2 ^ 128).
  { assert (to_int32 n < 2147483648)%Z by (unfold to_int32; pose proof (Z.mod_pos_bound (n + 2147483648) 4294967296); lia).
    rewrite Z.quot_div_nonneg by lia. apply N.lt_le_trans with 2147483648; [|vm_compute; discriminate]. assert (q / 128 <= q)%Z by (apply Z.div_le_upper_bound; lia). lia. }
  destruct (C47_shape F _ _ _ HC _ _ _ _ _ _ _ Hal HK) as [HS0 HS1].
  destruct (C47_blocks F _ _ _ HC _ _ _ _ _ _ _ Hal HA H0 H1 HK) as [HB0 HB1].
  assert (HX : exists party, key_shape (dense_params clog n) d' party k /\ key_blocks k /\ (party = 0 \/ party = 1)%Z).
  { destruct Hk as [-> | ->]; [exists 0%Z|exists 1%Z]; auto. }
  destruct HX as (party & HS & HB & Hparty). clear Hk HS0 HS1 HB0 HB1.
  assert (HT : forall h T, level_has (dense_params clog n) h T -> T = block_type).
  { intros h T (_ & p & Hp & Hd). destruct h as [|h]; [|destruct h; discriminate]. injection Hp as <-. eapply denotes_fun; [exact Hd|apply (denotes_xor 128)]. }
  destruct (shape_fine F _ _ _ HC party k 2 HS HB Hparty) as [G1 G2].
  { intros h T HL. rewrite (HT h T HL). apply Nat.le_refl. }
  split; [exact G1|]. split; [exact G2|].
  destruct (created_wf _ _ _ _ HC) as (W & Hlen & Hpar). cbn [length dense_params] in Hlen.
  destruct (Hpar 0%nat _ eq_refl) as (p & Hp & Hld & _). cbn [p_ld] in Hld. destruct (wf_ld_z _ W _ _ Hp) as [Hr Hl]. rewrite Hld in Hr, Hl.
  pose proof (wf_h2t_ld _ W 0%nat ltac:(unfold nlevels; lia)) as Hh. pose proof (wf_levels _ W) as HV. unfold nlevels in HV. rewrite Hlen in HV. cbn [Nat.sub] in HV.
  pose proof (ks_cws _ _ _ _ HS) as Hcw. unfold write_key. rewrite !app_length.
  assert (L1 : (length (write_optional 10 write_uint128 (k_seed k)) <= 33)%nat).
  { unfold write_optional. destruct (k_seed k) as [s|]; [|cbn; lia]. pose proof (field_len 10 (write_uint128 s)). pose proof (uint128_len s). lia. }
  assert (L2 : (length (flat_map (fun cw => encode_field 18 (write_cword cw)) (k_cws k)) <= length (k_cws k) * 66)%nat).
  { apply flat_len. apply Forall_forall. intros cw Hin. pose proof (field_len 18 (write_cword cw)) as L. eapply Nat.le_trans; [exact L|].
    apply In_nth_error in Hin. destruct Hin as [i Hi].
    assert (Hv : cw_values cw = []).
    { apply (ks_none _ _ _ _ HS i cw Hi). intros HI. destruct (In_nth _ _ 0%nat HI) as (h & Hh1 & Eh). pose proof (wf_len _ W) as WL. unfold nlevels in WL.
      assert (h = 0)%nat as -> by lia. assert (HX : (i < length (k_cws k))%nat) by (apply nth_error_Some; congruence). unfold h2t in HV. lia. }
    unfold write_cword. rewrite Hv. cbn [flat_map]. rewrite !app_length. cbn [length].
    pose proof (field_len 10 (write_uint128 (cw_seed cw))). pose proof (uint128_len (cw_seed cw)).
    pose proof (number_len 16 (N.b2n (cw_left cw))). pose proof (number_len 24 (N.b2n (cw_right cw))). lia. }
  pose proof (number_len 24 (Z.to_N (k_party k mod 2 ^ 64))) as L3.
  assert (L4 : (length (flat_map (fun v => encode_field 42 (write_value v)) (k_last k)) <= 55)%nat).
  { destruct (ks_last _ _ _ _ HS) as (T & HT1 & es & He & _ & ->). rewrite (HT _ _ HT1) in *. change (elements_per_block block_type) with 1%nat in He.
    destruct es as [|e [|? ?]]; try discriminate. cbn [map flat_map]. rewrite app_nil_r. eapply Nat.le_trans; [apply field_len|].
    destruct e as [x|xs]; cbn [to_value block_type write_value]; [|cbn; lia]. pose proof (field_len 34 (write_vinteger (uint128_to_vinteger x))). pose proof (vinteger_len (uint128_to_vinteger x)). lia. }
  lia.
Qed.
(** What the Helper gets from the dense client. *)
Lemma dense_helper_fine : forall aes queries seeds pad l h st, on_blocks aes -> (forall i, fst (seeds i) < 2 ^ 128 /\ snd (seeds i) < 2 ^ 128) ->
  dense_create_plain_requests aes c queries seeds pad = Ok (l, h, st) ->
  hq_seed h = pad /\ let q := match hq_plain h with Some q => q | None => default_plain end in
  pq_fingerprint q = 0 /\ Forall (fun k => dkey_ok k /\ (key_depth k <= 4)%nat /\ (Z.of_nat (length (write_key k)) <= 99 + 66 * clog n)%Z) (pq_keys q) /\
  length (pq_keys q) = length queries /\ (0 <= clog n)%Z.
Proof.
  intros aes queries seeds pad l h st HA HS H. destruct client_created as (HC & Hn & Hsz). unfold dense_create_plain_requests in H.
  bind_inv H. bind_inv H. injection H as <- <- <-. cbn [hq_seed hq_plain]. split; [reflexivity|].
  destruct (created_wf _ _ _ _ HC) as (W & Hlen & Hpar). destruct (Hpar 0%nat _ eq_refl) as (p & Hp & Hld & _). cbn [p_ld] in Hld. destruct (wf_ld_z _ W _ _ Hp) as [Hr _]. rewrite Hld in Hr.
  assert (HQ : Forall (fun q => 0 <= q < to_int32 n)%Z queries).
  { clear Hb0. rewrite Hsz in Hb. clear - Hb. destruct a. induction queries as [|q queries IH]; [constructor|]. cbn [iterM] in Hb. bind_inv Hb. bind_inv Hb0.
    apply check_ok in Hb0, Hb1. constructor; [lia|apply IH; assumption]. }
  assert (HK : Forall (fun k => dkey_ok k /\ (key_depth k <= 4)%nat /\ (Z.of_nat (length (write_key k)) <= 99 + 66 * clog n)%Z) (map snd a0) /\ length a0 = length queries).
  { destruct (mapM_combine _ _ _ (fun kk : dkey * dkey => dkey_ok (snd kk) /\ (key_depth (snd kk) <= 4)%nat /\ (Z.of_nat (length (write_key (snd kk))) <= 99 + 66 * clog n)%Z)
      _ _ _ _ (seq_length _ _) Hb0) as [M1 M2].
    - intros i q [k0 k1] Hin HKq. cbn [fst snd] in *. eapply dense_key_fine; [exact HA|apply HS|apply HS| |exact HKq|right; reflexivity]. exact (proj1 (Forall_forall _ _) HQ q Hin).
    - split; [|exact M2]. apply Forall_map. exact M1. }
  destruct HK as [K1 K2]. destruct a0 as [|kk a0].
  - cbn [default_plain pq_keys pq_fingerprint]. split; [reflexivity|]. split; [constructor|]. split; [exact K2|lia].
  - cbn [pq_keys pq_fingerprint]. split; [reflexivity|]. split; [exact K1|]. split; [rewrite map_length; exact K2|lia].
Qed.
(** What the Leader gets. *)
Lemma dense_leader_fine : forall aes queries seeds pad l h st, on_blocks aes -> (forall i, fst (seeds i) < 2 ^ 128 /\ snd (seeds i) < 2 ^ 128) ->
  dense_create_plain_requests aes c queries seeds pad = Ok (l, h, st) -> st = CsDense pad /\ pq_fingerprint l = 0 /\
  Forall (fun k => dkey_ok k /\ (key_depth k <= 4)%nat /\ (Z.of_nat (length (write_key k)) <= 99 + 66 * clog n)%Z) (pq_keys l) /\ length (pq_keys l) = length queries.
Proof.
  intros aes queries seeds pad l h st HA HS H. destruct client_created as (HC & Hn & Hsz). unfold dense_create_plain_requests in H.
  bind_inv H. bind_inv H. injection H as <- <- <-. cbn [pq_keys pq_fingerprint]. split; [reflexivity|]. split; [reflexivity|].
  assert (HQ : Forall (fun q => 0 <= q < to_int32 n)%Z queries).
  { clear Hb0. rewrite Hsz in Hb. clear - Hb. destruct a. induction queries as [|q queries IH]; [constructor|]. cbn [iterM] in Hb. bind_inv Hb. bind_inv Hb0.
    apply check_ok in Hb0, Hb1. constructor; [lia|apply IH; assumption]. }
  destruct (mapM_combine _ _ _ (fun kk : dkey * dkey => dkey_ok (fst kk) /\ (key_depth (fst kk) <= 4)%nat /\ (Z.of_nat (length (write_key (fst kk))) <= 99 + 66 * clog n)%Z)
      _ _ _ _ (seq_length _ _) Hb0) as [M1 M2].
  - intros i q [k0 k1] Hin HKq. cbn [fst snd] in *. eapply dense_key_fine; [exact HA|apply HS|apply HS| |exact HKq|left; reflexivity]. exact (proj1 (Forall_forall _ _) HQ q Hin).
  - split; [apply Forall_map; exact M1|rewrite map_length; exact M2].
Qed.
End Keys.

(** ** Exchanges *)

(** The channel delivers the request [h]. *)
Definition delivers (ch : channel) (h : helper_request) : Prop :=
  exists e, ch_enc ch (ch_ser ch h) (ch_context ch) = Ok e /\ ch_dec ch e (ch_context ch) = Ok (ch_ser ch h) /\ ch_par ch (ch_ser ch h) = Some h.
Lemma exchange_delivers : forall (A : Type) aes (R : res (plain_request * helper_request * client_state)) hl hh (f : response -> client_state -> res A) ch ch',
  (forall l h st, R = Ok (l, h, st) -> delivers ch h /\ delivers ch' h) ->
  ('(req, state) <- create_request (ch_ser ch) (ch_enc ch) (ch_context ch) R ;;
   response <- handle_request aes (ch_par ch) hl (Leader (honest_sender (handle_request aes (ch_par ch) hh (Helper (ch_dec ch) (ch_context ch))))) req ;;
   f response state)
  = ('(req, state) <- create_request (ch_ser ch') (ch_enc ch') (ch_context ch') R ;;
     response <- handle_request aes (ch_par ch') hl (Leader (honest_sender (handle_request aes (ch_par ch') hh (Helper (ch_dec ch') (ch_context ch'))))) req ;;
     f response state).
Proof.
  intros A aes R hl hh f ch ch' HD. unfold create_request. destruct R as [[[l h] st]| | |]; try reflexivity. cbn [bind].
  destruct (HD l h st eq_refl) as [(e & E1 & E2 & E3) (e' & E1' & E2' & E3')]. unfold to_leader_request. rewrite E1, E1'. cbn [bind].
  unfold handle_request, handle_leader_request, honest_sender, handle_helper_request. cbn [bind]. rewrite E2, E2'. cbn [bind]. rewrite E3, E3'. reflexivity.
Qed.
(** Keys, and the bytes of a request for [m] of them over [n] elements, at most. *)
Definition request_size (clog : Z -> Z) (n : Z) (m : nat) : Z := (Z.of_nat m * (110 + 66 * clog n) + 100)%Z.
Lemma plain_len : forall (clog : Z -> Z) (n : Z) q fp m, Forall (fun k => dkey_ok k /\ (key_depth k <= 4)%nat /\ (Z.of_nat (length (write_key k)) <= 99 + 66 * clog n)%Z) (pq_keys q) ->
  length (pq_keys q) = m -> (0 <= clog n)%Z -> (Z.of_nat (length (write_plain {| pq_keys := pq_keys q; pq_fingerprint := fp |})) <= Z.of_nat m * (110 + 66 * clog n) + 5)%Z.
Proof.
  intros clog n q fp m HK Hm Hc. unfold write_plain. cbn [pq_keys pq_fingerprint]. rewrite app_length.
  assert (L5 : (length (if (fp =? 0)%N then [] else 21%N :: le_encode 4 fp) <= 5)%nat) by (destruct (fp =? 0); cbn [length]; rewrite ?le_encode_length; lia).
  pose proof (flat_len _ (fun k => encode_field 10 (write_key k)) (pq_keys q) (Z.to_nat (110 + 66 * clog n))) as L6. rewrite Hm in L6.
  assert (L7 : Forall (fun k => (length (encode_field 10 (write_key k)) <= Z.to_nat (110 + 66 * clog n))%nat) (pq_keys q)).
  { eapply Forall_impl; [|exact HK]. intros k (_ & _ & H). pose proof (field_len 10 (write_key k)). lia. }
  specialize (L6 L7). clear L7. apply inj_le in L6. rewrite Nat2Z.inj_mul, Z2Nat.id in L6 by lia. lia.
Qed.
Lemma helper_len : forall (clog : Z -> Z) (n : Z) q pad fp m, (length pad <= 16)%nat ->
  Forall (fun k => dkey_ok k /\ (key_depth k <= 4)%nat /\ (Z.of_nat (length (write_key k)) <= 99 + 66 * clog n)%Z) (pq_keys q) ->
  length (pq_keys q) = m -> (0 <= clog n)%Z -> forall o, o = None \/ o = Some {| pq_keys := pq_keys q; pq_fingerprint := fp |} ->
  (Z.of_nat (length (write_helper {| hq_plain := o; hq_seed := pad |})) <= request_size clog n m)%Z.
Proof.
  intros clog n q pad fp m Hpad HK Hm Hc o Ho. unfold write_helper. cbn [hq_plain hq_seed]. rewrite app_length.
  assert (L2 : (length (match pad with [] => [] | _ => encode_field 18 pad end) <= 27)%nat) by (destruct pad; [cbn; lia|pose proof (field_len 18 (n0 :: pad)); lia]).
  unfold request_size. destruct Ho as [-> | ->]; cbn [write_optional length]; [lia|].
  pose proof (field_len 10 (write_plain {| pq_keys := pq_keys q; pq_fingerprint := fp |})) as L1. pose proof (plain_len clog n q fp m HK Hm Hc) as LP. lia.
Qed.
Lemma request_delivered : forall clog n limit encrypt decrypt context q pad fp m,
  (forall x, exists e, encrypt x context = Ok e /\ decrypt e context = Ok x) -> fp < 2 ^ 32 -> (length pad <= 16)%nat ->
  Forall (fun k => dkey_ok k /\ (key_depth k <= 4)%nat /\ (Z.of_nat (length (write_key k)) <= 99 + 66 * clog n)%Z) (pq_keys q) ->
  length (pq_keys q) = m -> (0 <= clog n)%Z -> (request_size clog n m <= Z.of_N max_size)%Z -> (6 <= limit)%nat ->
  forall o, o = None \/ o = Some {| pq_keys := pq_keys q; pq_fingerprint := fp |} ->
  delivers (wired limit encrypt decrypt context) {| hq_plain := o; hq_seed := pad |}.
Proof.
  intros clog n limit encrypt decrypt context q pad fp m HE Hfp Hpad HK Hm Hc HS Hl o Ho.
  pose proof (helper_len clog n q pad fp m Hpad HK Hm Hc o Ho) as HB.
  set (h := {| hq_plain := o; hq_seed := pad |}) in *. destruct (HE (serialize_helper h)) as (e & E1 & E2). exists e. cbn [wired ch_enc ch_dec ch_ser ch_par ch_context].
  split; [exact E1|]. split; [exact E2|].
  assert (HO : helper_ok h).
  { intros p Hp. cbn [h hq_plain] in Hp. destruct Ho as [-> | ->]; [discriminate|]. injection Hp as <-. split; [|exact Hfp]. eapply Forall_impl; [|exact HK]. intros k H. apply H. }
  destruct (C86_request_exact limit h HO) as (_ & R & _); [lia|]. apply R.
  unfold helper_depth. cbn [h hq_plain]. destruct Ho as [-> | ->]; [lia|]. unfold plain_depth. cbn [pq_keys].
  assert (deepest key_depth (pq_keys q) <= 5)%nat; [|lia]. apply deepest_le. eapply Forall_impl; [|exact HK]. intros k (_ & H & _). lia.
Qed.

(** An exchange of dense PIR with serialized requests is one over any other channel that delivers
    every request. *)
Theorem C86_dense : forall limit encrypt decrypt context ch0 aes F clog n t0 t1 d0 d1 queries seeds pad,
  (6 <= limit)%nat -> (forall x, exists e, encrypt x context = Ok e /\ decrypt e context = Ok x) -> channel_ok ch0 ->
  on_blocks aes -> (forall i, fst (seeds i) < 2 ^ 128 /\ snd (seeds i) < 2 ^ 128) -> length pad = 16%nat ->
  (request_size clog n (length queries) <= Z.of_N max_size)%Z ->
  dense_exchange aes F clog (wired limit encrypt decrypt context) n t0 t1 d0 d1 queries seeds pad
  = dense_exchange aes F clog ch0 n t0 t1 d0 d1 queries seeds pad.
Proof.
  intros limit encrypt decrypt context ch0 aes F clog n t0 t1 d0 d1 queries seeds pad Hl HE [HS0 HE0] HA Hs Hpad HS. unfold dense_exchange.
  destruct (dense_client_create F clog (CfgDense n) true) as [c| | |] eqn:EC; try reflexivity. cbn [bind].
  destruct (dense_create_plain F clog (CfgDense n) (Some d0)) as [s0| | |]; try reflexivity. cbn [bind].
  destruct (dense_create_plain F clog (CfgDense n) (Some d1)) as [s1| | |]; try reflexivity. cbn [bind].
  apply exchange_delivers. intros l h st HR. split.
  - destruct (dense_helper_fine F clog n c EC aes queries seeds pad l h st HA Hs HR) as (P1 & P2 & P3 & P4 & P5).
    destruct h as [o p]. cbn [hq_seed hq_plain] in *. subst p.
    eapply (request_delivered clog n limit encrypt decrypt context (match o with Some q => q | None => default_plain end) pad 0); try eassumption; try reflexivity; [lia|].
    destruct o as [[ks fp]|]; [right|left; reflexivity]. cbn [pq_keys pq_fingerprint] in *. subst fp. reflexivity.
  - destruct (HE0 (ch_ser ch0 h)) as (e & X1 & X2). exists e. auto.
Qed.
Print Assumptions C86_dense.
(** The same for the sparse protocols; cuckoo hashing makes a key for every query and hash function. *)
Lemma mapM_lengths : forall (A B : Type) (f : A -> res (list B)) l ls k, mapM f l = Ok ls -> (forall x y, f x = Ok y -> length y = k) -> length (concat ls) = (length l * k)%nat.
Proof.
  intros A B f l. induction l as [|x l IH]; intros ls k H HK; cbn [mapM] in H; [inversion H; reflexivity|].
  bind_inv H. bind_inv H. inversion H; subst. cbn [concat length]. rewrite app_length, (IH _ _ Hb0 HK), (HK _ _ Hb). reflexivity.
Qed.
Lemma mapM_len : forall (A B : Type) (f : A -> res B) l ls, mapM f l = Ok ls -> length ls = length l.
Proof.
  intros A B f l. induction l as [|x l IH]; intros ls H; cbn [mapM] in H; [inversion H; reflexivity|].
  bind_inv H. bind_inv H. inversion H; subst. cbn [length]. rewrite (IH _ Hb0). reflexivity.
Qed.
Lemma fingerprint_range : forall fp, to_uint32 fp < 2 ^ 32.
Proof. intros fp. unfold to_uint32. pose proof (Z.mod_pos_bound fp 4294967296 ltac:(lia)). change (2 ^ 32) with 4294967296. lia. Qed.
Theorem C86_cuckoo : forall limit encrypt decrypt context ch0 aes F clog sha p t0 t1 d0 d1 queries seeds pad,
  (6 <= limit)%nat -> (forall x, exists e, encrypt x context = Ok e /\ decrypt e context = Ok x) -> channel_ok ch0 ->
  on_blocks aes -> (forall i, fst (seeds i) < 2 ^ 128 /\ snd (seeds i) < 2 ^ 128) -> length pad = 16%nat ->
  (request_size clog (cp_buckets p) (length queries * Z.to_nat (cp_functions p)) <= Z.of_N max_size)%Z ->
  cuckoo_exchange aes F clog sha (wired limit encrypt decrypt context) p t0 t1 d0 d1 queries seeds pad
  = cuckoo_exchange aes F clog sha ch0 p t0 t1 d0 d1 queries seeds pad.
Proof.
  intros limit encrypt decrypt context ch0 aes F clog sha p t0 t1 d0 d1 queries seeds pad Hl HE [HS0 HE0] HA Hs Hpad HS. unfold cuckoo_exchange.
  destruct (cuckoo_client_create sha F clog (PpCuckoo p) true) as [c| | |] eqn:EC; try reflexivity. cbn [bind].
  destruct (cuckoo_create_plain sha F clog p (Some d0)) as [s0| | |]; try reflexivity. cbn [bind].
  destruct (cuckoo_create_plain sha F clog p (Some d1)) as [s1| | |]; try reflexivity. cbn [bind].
  apply exchange_delivers. intros l h st HR. split.
  - unfold cuckoo_client_create in EC. bind_inv EC. bind_inv EC. bind_inv EC. apply check_ok in Hb1. bind_inv EC. bind_inv EC. bind_inv EC. bind_inv EC. injection EC as <-.
    unfold cuckoo_create_plain_requests in HR. cbn [cc_dense cc_functions cc_buckets cc_fingerprint] in HR. bind_inv HR. bind_inv HR. destruct a7 as [[l1 h1] st1].
    cbn [add_fingerprint] in HR. injection HR as <- <- <-.
    destruct (dense_helper_fine F clog _ _ Hb5 aes _ seeds pad l1 h1 st1 HA Hs Hb7) as (P1 & P2 & P3 & P4 & P5).
    rewrite P1. eapply (request_delivered clog (cp_buckets p) limit encrypt decrypt context (match hq_plain h1 with Some q => q | None => default_plain end) pad (to_uint32 a3));
      try eassumption; [apply fingerprint_range|lia| |right; reflexivity].
    rewrite (mapM_lengths _ _ _ _ _ (Z.to_nat (cp_functions p)) Hb6); [exact HS|]. intros x y Hy. rewrite (mapM_len _ _ _ _ _ Hy). unfold create_hash_functions in Hb4. bind_inv Hb4. injection Hb4 as <-.
    rewrite map_length, seq_length. reflexivity.
  - destruct (HE0 (ch_ser ch0 h)) as (e & X1 & X2). exists e. auto.
Qed.
Print Assumptions C86_cuckoo.
Theorem C86_simple : forall limit encrypt decrypt context ch0 aes F clog sha p t0 t1 d0 d1 queries seeds pad,
  (6 <= limit)%nat -> (forall x, exists e, encrypt x context = Ok e /\ decrypt e context = Ok x) -> channel_ok ch0 ->
  on_blocks aes -> (forall i, fst (seeds i) < 2 ^ 128 /\ snd (seeds i) < 2 ^ 128) -> length pad = 16%nat ->
  (request_size clog (sp_buckets p) (length queries) <= Z.of_N max_size)%Z ->
  simple_exchange aes F clog sha (wired limit encrypt decrypt context) p t0 t1 d0 d1 queries seeds pad
  = simple_exchange aes F clog sha ch0 p t0 t1 d0 d1 queries seeds pad.
Proof.
  intros limit encrypt decrypt context ch0 aes F clog sha p t0 t1 d0 d1 queries seeds pad Hl HE [HS0 HE0] HA Hs Hpad HS. unfold simple_exchange.
  destruct (simple_client_create sha F clog (PpSimple p) true) as [c| | |] eqn:EC; try reflexivity. cbn [bind].
  destruct (simple_create_plain sha F clog p (Some d0)) as [s0| | |]; try reflexivity. cbn [bind].
  destruct (simple_create_plain sha F clog p (Some d1)) as [s1| | |]; try reflexivity. cbn [bind].
  apply exchange_delivers. intros l h st HR. split.
  - unfold simple_client_create in EC. bind_inv EC. bind_inv EC. bind_inv EC. bind_inv EC. bind_inv EC. bind_inv EC. bind_inv EC. injection EC as <-.
    unfold simple_create_plain_requests in HR. cbn [sc_dense sc_function sc_buckets sc_fingerprint] in HR. bind_inv HR. bind_inv HR. destruct a7 as [[l1 h1] st1].
    cbn [add_fingerprint] in HR. injection HR as <- <- <-.
    destruct (dense_helper_fine F clog _ _ Hb5 aes _ seeds pad l1 h1 st1 HA Hs Hb7) as (P1 & P2 & P3 & P4 & P5).
    rewrite P1. eapply (request_delivered clog (sp_buckets p) limit encrypt decrypt context (match hq_plain h1 with Some q => q | None => default_plain end) pad (to_uint32 a2));
      try eassumption; [apply fingerprint_range|lia| |right; reflexivity].
    rewrite (mapM_len _ _ _ _ _ Hb6). exact HS.
  - destruct (HE0 (ch_ser ch0 h)) as (e & X1 & X2). exists e. auto.
Qed.
Print Assumptions C86_simple.

(** C32 without any assumption on the serialization: the outcome of every exchange with serialized
    requests.  The records are returned, unless the servers reject the request or compute out of
    the range of an int. *)
Theorem C86_dense_records : forall limit encrypt decrypt context aes F clog records t0 t1 db0 db1 queries seeds pad,
  let n := Z.of_nat (length records) in
  (6 <= limit)%nat -> (forall x, exists e, encrypt x context = Ok e /\ decrypt e context = Ok x) ->
  on_blocks aes -> (forall i, fst (seeds i) < 2 ^ 128 /\ snd (seeds i) < 2 ^ 128) ->
  (request_size clog n (length queries) <= Z.of_N max_size)%Z ->
  byte_records records -> (0 < n < 2147483648)%Z -> clog_ok clog n -> target_ok t0 -> target_ok t1 ->
  holds db0 records -> holds db1 records ->
  queries <> [] -> Forall (fun q => 0 <= q < n)%Z queries -> length pad = 16%nat ->
  exchange_outcome (all_empty records \/ (31 <= clog n)%Z) (overflows clog n t0 \/ overflows clog n t1)
    (map (fun q => zero_padded (longest records) (nth (Z.to_nat q) records [])) queries)
    (dense_exchange aes F clog (wired limit encrypt decrypt context) n t0 t1 db0 db1 queries seeds pad).
Proof.
  intros limit encrypt decrypt context aes F clog records t0 t1 db0 db1 queries seeds pad n Hl HE HA Hs HS HB Hn HL T0 T1 H0 H1 Hne HQ Hpad.
  rewrite (C86_dense limit encrypt decrypt context xq_channel) by (try assumption; apply xq_channel_ok).
  apply C32_exact; try assumption. apply xq_channel_ok.
Qed.
Print Assumptions C86_dense_records.
(** C39 and C40 likewise: the answer to any query is the padded value in the first of its buckets
    whose key agrees with it, and nullopt if there is none. *)
Theorem C86_cuckoo_values : forall limit encrypt decrypt context aes F clog sha rnd ops0 ops1 ak0 av0 ak1 av1 t0 t1 d0 d1 K V queries seeds pad,
  let p := gs_params (gcrun ops0) in
  (6 <= limit)%nat -> (forall x, exists e, encrypt x context = Ok e /\ decrypt e context = Ok x) ->
  on_blocks aes -> (forall i, fst (seeds i) < 2 ^ 128 /\ snd (seeds i) < 2 ^ 128) ->
  (request_size clog (cp_buckets p) (length queries * Z.to_nat (cp_functions p)) <= Z.of_N max_size)%Z ->
  cuckoo_setup clog sha rnd xq_channel ops0 ops1 ak0 av0 ak1 av1 t0 t1 d0 d1 K V ->
  queries <> [] -> length pad = 16%nat ->
  exists answers, cuckoo_exchange aes F clog sha (wired limit encrypt decrypt context) p t0 t1 d0 d1 queries seeds pad = Ok answers /\
    Forall2 (fun q a =>
      let b := bucket sha (hf_seed (cp_hash p)) (cp_buckets p) q in
      match a with
      | Some w => exists j, (j < Z.to_nat (cp_functions p))%nat /\ (b j < length K)%nat /\ agrees K q (b j) /\
                    (forall j', (j' < j)%nat -> ~ agrees K q (b j')) /\ w = zero_padded (longest V) (nth (b j) V [])
      | None => forall j, (j < Z.to_nat (cp_functions p))%nat -> ~ agrees K q (b j)
      end) queries answers.
Proof.
  intros limit encrypt decrypt context aes F clog sha rnd ops0 ops1 ak0 av0 ak1 av1 t0 t1 d0 d1 K V queries seeds pad p Hl HE HA Hs HS HU Hne Hpad.
  rewrite (C86_cuckoo limit encrypt decrypt context xq_channel) by (try assumption; apply xq_channel_ok).
  eapply C39_C40_exact; eassumption.
Qed.
Print Assumptions C86_cuckoo_values.
(** C41 likewise. *)
Theorem C86_simple_values : forall limit encrypt decrypt context aes F clog sha ops0 ops1 a0 a1 d0 d1 t0 t1 queries seeds pad,
  let g := gsrun ops0 in let p := gs_params g in let kvs := gs_records g in
  (6 <= limit)%nat -> (forall x, exists e, encrypt x context = Ok e /\ decrypt e context = Ok x) ->
  on_blocks aes -> (forall i, fst (seeds i) < 2 ^ 128 /\ snd (seeds i) < 2 ^ 128) ->
  (request_size clog (sp_buckets p) (length queries) <= Z.of_N max_size)%Z ->
  (forall x, length (sha x) = 32%nat) -> alloc_ok a0 -> alloc_ok a1 ->
  Forall (fun kv => is_bytes (fst kv) /\ is_bytes (snd kv)) kvs ->
  gs_params (gsrun ops1) = p -> gs_records (gsrun ops1) = kvs ->
  simple_build sha a0 (srun ops0) = Ok d0 -> simple_build sha a1 (srun ops1) = Ok d1 ->
  (0 < sp_buckets p < 2147483648)%Z -> clog_ok clog (sp_buckets p) -> target_ok t0 -> target_ok t1 ->
  queries <> [] -> length pad = 16%nat ->
  exchange_outcome (kvs = [] \/ (31 <= clog (sp_buckets p))%Z) (overflows clog (sp_buckets p) t0 \/ overflows clog (sp_buckets p) t1)
    (map (first_value kvs) queries)
    (simple_exchange aes F clog sha (wired limit encrypt decrypt context) p t0 t1 d0 d1 queries seeds pad).
Proof.
  intros limit encrypt decrypt context aes F clog sha ops0 ops1 a0 a1 d0 d1 t0 t1 queries seeds pad g p kvs Hl HE HA Hs HS Hsha A0 A1 Hb E1 E2 B0 B1 Hn HL T0 T1 Hne Hpad.
  rewrite (C86_simple limit encrypt decrypt context xq_channel) by (try assumption; apply xq_channel_ok).
  apply (C41_exact aes F clog sha xq_channel ops0 ops1 a0 a1 d0 d1 t0 t1); try assumption. apply xq_channel_ok.
Qed.
Print Assumptions C86_simple_values.

(** The hypotheses of C86_dense_records hold for the 300 records of [xp_records], a toy cipher and the
    default recursion limit, and 4000 queries over 2^30 elements fit a request. *)
Definition xk_seeds (i : nat) : N * N := (N.of_nat i * 77 mod 2 ^ 128, 2 ^ 128 - 1 - N.of_nat i mod 2 ^ 128).
Lemma xk_seeds_ok : forall i, fst (xk_seeds i) < 2 ^ 128 /\ snd (xk_seeds i) < 2 ^ 128.
Proof. intros i. unfold xk_seeds. cbn [fst snd]. split; [apply N.mod_lt; discriminate|]. lia. Qed.
Example C86_pir_nonvacuous :
  match xp_db with Ok db => holds db xp_records | _ => False end /\ on_blocks ex_aes /\
  (forall x, exists e, ch_encrypt x [7] = Ok e /\ ch_decrypt e [7] = Ok x) /\ length xp_seed = 16%nat /\
  clog_ok xp_clog 300 /\ (request_size xp_clog 300 3 <= Z.of_N max_size)%Z /\
  (request_size xp_clog (2 ^ 30) 4000 <= Z.of_N max_size)%Z.
Proof.
  split; [pose proof C32_nonvacuous as H; destruct xp_db; [apply H|exact H..]|]. split; [exact ex_on_blocks|]. split; [intros x; apply ch_cipher|].
  split; [reflexivity|]. split; [apply xp_clog_ok; reflexivity|]. split; vm_compute; discriminate.
Qed.
(** Exchanges with serialized requests, computed; these short keys need a limit of 5, and with 4 the Helper cannot parse them. *)
Definition xk_dense (limit : nat) : res (list bytes) :=
  db <- fst (build xa_alloc (fold_left insert xp_five new_builder)) ;;
  dense_exchange ex_aes ex_F xp_clog (wired limit ch_encrypt ch_decrypt [7]) 5 xt_t xp_scalar db db [4; 2; 1]%Z xk_seeds xp_seed.
Example C86_dense_computed : xk_dense 100 = Ok [[255; 0; 3] ++ repeat 0 15; repeat 77 18; repeat 0 18] /\
  xk_dense 5 = xk_dense 100 /\ (match xk_dense 4 with Ok _ => False | _ => True end).
Proof. vm_compute. split; [reflexivity|]. split; [reflexivity|exact I]. Qed.
Example C86_simple_computed :
  match xr_db with
  | Ok d => simple_exchange ex_aes ex_F xp_clog xq_sha (wired 6 ch_encrypt ch_decrypt [7]) xr_params xt_t xp_scalar d d [[97]; [97; 0]; [98]] xk_seeds xp_seed
            = Ok [Some [5; 0; 0]; Some []; Some [7]]
  | _ => False
  end.
Proof. vm_compute. reflexivity. Qed.
