(** C86: keys and requests survive serialization. *)
From Coq Require Import List NArith ZArith Bool Lia ZifyBool ZifyNat ZifyN.
From Verif Require Import Base ListUtil ValueTypesModel ValueTypesSpec ValueTypesProofs TypeProofs DpfModel DpfTree DpfWf DpfSpec DpfExamples DpfPrivacySpec PropertiesPrivacy
  PirDbModel PirSpec PirModel PirProtoSpec PirProtoProofs PirDenseProofs PropertiesPir PropertiesPirProto HashModel SparseModel SparseSpec SparseProofs SparseDbProofs PropertiesSparse
  PropertiesIpExact PropertiesPirOutcomes PropertiesPirSafety PropertiesPirEnd WireModel KeyWireModel KeyWireSpec KeyWireProofs.
Import ListNotations.
Open Scope N_scope.

(** ** Round trips *)

(** A key, serialized and parsed again, is the same key, unless its messages are nested more
    deeply than the protocol buffer library allows, in which case it is rejected. *)
Theorem C86_key_exact : forall limit k, dkey_ok k -> N.of_nat (length (write_key k)) <= max_size ->
  is_bytes (write_key k) /\
  ((key_depth k <= limit)%nat -> parse_dpf_key limit (write_key k) = Some k) /\
  ((limit < key_depth k)%nat -> parse_dpf_key limit (write_key k) = None).
Proof.
  intros limit k HK HF. split; [apply key_bytes|]. unfold parse_dpf_key. rewrite key_round by assumption.
  split; intros H; destruct (Nat.leb_spec (key_depth k) limit); try lia; reflexivity.
Qed.
Print Assumptions C86_key_exact.
(** The same for the request of the Helper. *)
Theorem C86_request_exact : forall limit h, helper_ok h -> N.of_nat (length (write_helper h)) <= max_size ->
  (is_bytes (hq_seed h) -> is_bytes (serialize_helper h)) /\
  ((helper_depth h <= limit)%nat -> parse_helper limit (serialize_helper h) = Some h) /\
  ((limit < helper_depth h)%nat -> parse_helper limit (serialize_helper h) = None).
Proof.
  intros limit h HK HF. unfold serialize_helper. replace (_ <? 2 ^ 31) with true by (unfold max_size in HF; lia).
  split; [apply helper_bytes|]. rewrite helper_round by assumption.
  split; intros H; destruct (Nat.leb_spec (helper_depth h) limit); try lia; reflexivity.
Qed.
Print Assumptions C86_request_exact.
(** Different keys have different serializations. *)
Theorem C86_key_injective : forall k k', dkey_ok k -> dkey_ok k' -> N.of_nat (length (write_key k)) <= max_size ->
  write_key k = write_key k' -> k = k'.
Proof.
  intros k k' H H' HF E. pose proof (C86_key_exact (Nat.max (key_depth k) (key_depth k')) k H HF) as (_ & R & _).
  rewrite E in HF. pose proof (C86_key_exact (Nat.max (key_depth k) (key_depth k')) k' H' HF) as (_ & R' & _).
  specialize (R ltac:(lia)). specialize (R' ltac:(lia)). congruence.
Qed.
Print Assumptions C86_key_injective.
(** Whatever bytes the Helper decrypts, the request that it parses has all fields in their ranges. *)
Theorem C86_parsed : forall limit b h, is_bytes b -> parse_helper limit b = Some h -> helper_ok h /\ is_bytes (hq_seed h).
Proof. exact helper_parsed. Qed.
Print Assumptions C86_parsed.
Theorem C86_parsed_key : forall limit b k, is_bytes b -> parse_dpf_key limit b = Some k -> dkey_ok k.
Proof. intros limit b k HB H. eapply key_parsed; [exact HB|exact default_key_ok|exact H]. Qed.
Print Assumptions C86_parsed_key.

(** ** Generated keys *)

(** How deep the messages of a value of type [T] can be nested. *)
Fixpoint type_depth (T : cty) : nat :=
  match T with
  | TInt _ | TMod _ _ | TXor _ => 2
  | TTup ts => S (deepest type_depth ts)
  end.
Lemma uint128_vinteger : forall x, vinteger_ok (uint128_to_vinteger x) /\ (vinteger_depth (uint128_to_vinteger x) <= 1)%nat.
Proof.
  intros x. unfold uint128_to_vinteger. destruct (hi64 x =? 0); cbn [vinteger_ok vinteger_depth]; unfold hi64, lo64; repeat split; try lia; apply N.mod_lt; discriminate.
Qed.
Lemma to_value_fine : forall T v, value_ok (to_value T v) /\ (value_depth (to_value T v) <= type_depth T)%nat.
Proof.
  intros T. induction T as [w|w m|w|ts IH] using cty_ind'; intros v; destruct v as [x|xs]; cbn [to_value value_depth type_depth]; try (split; [exact I|lia]);
    try (destruct (uint128_vinteger x) as [H1 H2]; split; [exact H1|lia]).
  assert (G : Forall value_ok (zip2 to_value ts xs) /\ (deepest value_depth (zip2 to_value ts xs) <= deepest type_depth ts)%nat).
  { revert xs. induction IH as [|T ts HT IH IH2]; intros xs; [split; [constructor|cbn; lia]|].
    destruct xs as [|x xs]; [split; [constructor|cbn; lia]|]. cbn [zip2]. destruct (HT x) as [A1 A2]. destruct (IH2 xs) as [B1 B2].
    split; [constructor; assumption|].
    change (deepest value_depth (to_value T x :: zip2 to_value ts xs)) with (Nat.max (S (value_depth (to_value T x))) (deepest value_depth (zip2 to_value ts xs))).
    change (deepest type_depth (T :: ts)) with (Nat.max (S (type_depth T)) (deepest type_depth ts)). lia. }
  destruct G as [G1 G2]. split; [apply value_ok_tuple; exact G1|lia].
Qed.
Lemma block_fine : forall T vs n, block_of T vs -> (type_depth T <= n)%nat -> Forall value_ok vs /\ (deepest value_depth vs <= S n)%nat.
Proof.
  intros T vs n (es & _ & _ & ->) Hn. induction es as [|e es IH]; [split; [constructor|cbn; lia]|]. cbn [map].
  destruct (to_value_fine T e) as [A1 A2]. destruct IH as [B1 B2]. split; [constructor; assumption|].
  change (deepest value_depth (to_value T e :: map (to_value T) es)) with (Nat.max (S (value_depth (to_value T e))) (deepest value_depth (map (to_value T) es))). lia.
Qed.
Lemma deepest_le : forall (A : Type) (f : A -> nat) l n, Forall (fun x => (S (f x) <= n)%nat) l -> (deepest f l <= n)%nat.
Proof. intros A f l n H. induction H; [cbn; lia|]. change (deepest f (x :: l)) with (Nat.max (S (f x)) (deepest f l)). lia. Qed.
Lemma shape_fine : forall F ps types d, created F ps types d -> forall party key n, key_shape ps d party key -> key_blocks key -> (party = 0 \/ party = 1)%Z ->
  (forall h T, level_has ps h T -> (type_depth T <= n)%nat) -> dkey_ok key /\ (key_depth key <= 2 + n)%nat.
Proof.
  intros F ps types d HC party key n HS [HB1 HB2] Hp HT. destruct (created_wf _ _ _ _ HC) as (W & Hlen & _).
  assert (HCW : Forall (fun cw => Forall value_ok (cw_values cw) /\ (deepest value_depth (cw_values cw) <= S n)%nat) (k_cws key)).
  { apply Forall_forall. intros cw Hin. apply In_nth_error in Hin. destruct Hin as [i Hi].
    destruct (in_dec Nat.eq_dec i (d_h2t d)) as [HI|HI].
    - destruct (In_nth _ _ 0%nat HI) as (h & Hh & Eh). pose proof (wf_len _ W) as WL. unfold nlevels in WL.
      assert (HL : (S h < length ps)%nat).
      { destruct (Nat.eq_dec (S h) (length ps)) as [E|E]; [|lia]. exfalso.
        assert (HX : (i < length (k_cws key))%nat) by (apply nth_error_Some; congruence). rewrite (ks_cws _ _ _ _ HS) in HX.
        pose proof (wf_levels _ W) as WV. unfold h2t, nlevels in WV. replace (length (d_params d) - 1)%nat with h in WV by lia. lia. }
      rewrite <- Eh in Hi. destruct (ks_level _ _ _ _ HS h cw HL Hi) as (T & HT1 & HT2). eapply block_fine; [exact HT2|]. eapply HT; exact HT1.
    - rewrite (ks_none _ _ _ _ HS i cw Hi HI). split; [constructor|cbn; lia]. }
  destruct (ks_last _ _ _ _ HS) as (T & HT1 & HT2). destruct (block_fine _ _ n HT2 (HT _ _ HT1)) as [L1 L2].
  split.
  - split; [exact HB1|]. split; [|split; [|exact L1]].
    + apply Forall_forall. intros cw Hin. split; [exact (proj1 (Forall_forall _ _) HB2 cw Hin)|apply (proj1 (Forall_forall _ _) HCW cw Hin)].
    + rewrite (ks_party _ _ _ _ HS). change (2 ^ 31)%Z with 2147483648%Z. lia.
  - unfold key_depth. assert (A1 : (deepest cword_depth (k_cws key) <= 2 + n)%nat).
    { apply deepest_le. eapply Forall_impl; [|exact HCW]. intros cw [_ H]. unfold cword_depth. lia. }
    destruct (k_seed key); lia.
Qed.
(** Every generated key survives serialization if its value types are not nested too deeply and it
    is not larger than a message can be. *)
Theorem C86_generated : forall F ps types d, created F ps types d ->
  forall aes alpha beta s0 s1 k0 k1 limit, alpha < 2 ^ 128 -> on_blocks aes -> s0 < 2 ^ 128 -> s1 < 2 ^ 128 ->
  generate_keys aes d alpha beta s0 s1 = Ok (k0, k1) ->
  (forall h T, level_has ps h T -> (2 + type_depth T <= limit)%nat) ->
  forall k, k = k0 \/ k = k1 -> N.of_nat (length (write_key k)) <= max_size -> parse_dpf_key limit (write_key k) = Some k.
Proof.
  intros F ps types d HC aes alpha beta s0 s1 k0 k1 limit Ha HA H0 H1 HG HT k Hk HF.
  destruct (C47_shape F ps types d HC _ _ _ _ _ _ _ Ha HG) as [S0 S1].
  destruct (C47_blocks F ps types d HC _ _ _ _ _ _ _ Ha HA H0 H1 HG) as [B0 B1].
  assert (HL : (2 <= limit)%nat). { destruct (ks_last _ _ _ _ S0) as (T & HT1 & _). specialize (HT _ _ HT1). lia. }
  assert (G : dkey_ok k /\ (key_depth k <= 2 + (limit - 2))%nat).
  { destruct Hk as [-> | ->]; eapply shape_fine; try eassumption; try (left; reflexivity); try (right; reflexivity); intros h T HT1; specialize (HT _ _ HT1); lia. }
  destruct G as [G1 G2]. apply C86_key_exact; [exact G1|exact HF|lia].
Qed.
Print Assumptions C86_generated.

(** ** Values nested too deeply *)
Fixpoint nested (n : nat) : cty := match n with O => TInt 8 | S n => TTup [nested n] end.
Fixpoint nested_value (n : nat) (x : N) : cval := match n with O => VNum x | S n => VTup [nested_value n x] end.
Definition nested_params (n : nat) : list param := [{| p_ld := 5; p_vt := Some (to_value_type (nested n)); p_sec := DFin (QArith_base.Qmake 0 1) |}].
(** What is left of a key of a DPF with [n] nested tuples around a uint8_t. *)
Definition nested_outcome (n : nat) : option (bool * option bool) :=
  match create_incremental ex_F (nested_params n) with
  | Ok d => match generate_keys ex_aes (register_value_type (nested n) d) 19 [to_value (nested n) (nested_value n 200)] 1234 5678 with
            | Ok (k, _) => Some (match parse_dpf_key 100 (write_key k) with Some _ => true | None => false end,
                                 match parse_dpf_key 1000 (write_key k) with Some k' => Some (Nat.eqb (key_depth k') (key_depth k)) | None => None end)
            | _ => None
            end
  | _ => None
  end.
(** Fifty nested tuples are a value type that Create and GenerateKeys accept, but the keys cannot be
    parsed with the default limit of 100 on the nesting of messages. *)
Theorem C86_nested_refuted : exists F ps types d aes alpha beta s0 s1 k0 k1, created F ps types d /\ alpha < 2 ^ 128 /\ on_blocks aes /\
  s0 < 2 ^ 128 /\ s1 < 2 ^ 128 /\ generate_keys aes d alpha beta s0 s1 = Ok (k0, k1) /\
  N.of_nat (length (write_key k0)) < 10000 /\ parse_dpf_key 100 (write_key k0) = None /\ parse_dpf_key 100 (write_key k1) = None /\
  parse_dpf_key 102 (write_key k0) = Some k0.
Proof.
  destruct (create_incremental ex_F (nested_params 50)) as [d| | |] eqn:ED; [|vm_compute in ED; discriminate..].
  destruct (generate_keys ex_aes (register_value_type (nested 50) d) 19 [to_value (nested 50) (nested_value 50 200)] 1234 5678) as [[k0 k1]| | |] eqn:EG.
  2-4: exfalso; vm_compute in ED; injection ED as <-; vm_compute in EG; discriminate.
  exists ex_F, (nested_params 50), [nested 50], (register_value_type (nested 50) d), ex_aes, 19, [to_value (nested 50) (nested_value 50 200)], 1234, 5678, k0, k1.
  split; [exists d; split; [exact ED|split; [repeat constructor|reflexivity]]|]. split; [reflexivity|]. split; [apply ex_on_blocks|].
  split; [reflexivity|]. split; [reflexivity|]. split; [exact EG|].
  vm_compute in ED. injection ED as <-. vm_compute in EG. injection EG as <- <-. repeat (split; [vm_compute; reflexivity|]). vm_compute. reflexivity.
Qed.
Print Assumptions C86_nested_refuted.
(** Forty-nine are parsed. *)
Example C86_nested_nonvacuous : nested_outcome 49 = Some (true, Some true) /\ nested_outcome 50 = Some (false, Some true).
Proof. vm_compute. auto. Qed.
