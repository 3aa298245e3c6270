(** Properties of key generation, creation and robustness: C07-C13.  See
    PropertiesDpf.v for the vocabulary. *)
From Coq Require Import List NArith ZArith QArith Lia Bool ZifyBool ZifyNat ZifyN.
From Verif Require Import Base ListUtil ValueTypesModel ValueTypesSpec ValueTypesProofs
  ConvProofs BitsProofs TypeProofs DpfModel DpfTree DpfWf DpfGen DpfEval DpfPoint DpfCtx DpfApply
  DpfSpec DpfHist DpfReach DpfSafe DpfCreate DpfFacts DpfExamples PropertiesValueTypes.
Import ListNotations.
Ltac Zify.zify_post_hook ::= Z.div_mod_to_equations.
Open Scope N_scope.

(** ** C07: key generation rejects invalid inputs and accepts valid ones.
    Partial: the value types have enough reserved bytes ([roomy]).  For other types the claim is false
    (C07_keygen_refuted, PropertiesKeygenExact.v), and C07_exact there describes every outcome. *)
Theorem C07_keygen_rejects_partial : forall aes F ps types d alpha beta seed0 seed1,
  created F ps types d -> registered ps types -> Forall (roomy ps d) types ->
  alpha < 2 ^ 128 -> ~ keygen_args ps alpha beta ->
  generate_keys aes d alpha beta seed0 seed1 = Err INVALID_ARGUMENT.
Proof.
  intros aes F ps types d alpha beta seed0 seed1 HC HR HS Ha HA.
  exact (keygen_rejects aes F ps types d HC HR HS alpha beta seed0 seed1 Ha HA).
Qed.
Print Assumptions C07_keygen_rejects_partial.
Theorem C07_keygen_accepts_partial : forall aes F ps types d alpha beta seed0 seed1,
  created F ps types d -> registered ps types -> Forall (roomy ps d) types ->
  keygen_args ps alpha beta ->
  exists k0 k1, generate_keys aes d alpha beta seed0 seed1 = Ok (k0, k1).
Proof.
  intros aes F ps types d alpha beta seed0 seed1 HC HR HS HA.
  exact (keygen_accepts aes F ps types d HC HR HS alpha beta seed0 seed1 HA).
Qed.
Print Assumptions C07_keygen_accepts_partial.
Lemma ex_registered : registered ex_ps ex_types.
Proof.
  unfold registered, ex_ps, ex_types. repeat constructor.
  - exists (TInt 8). split; [cbn; tauto|reflexivity].
  - exists ex_tuple. split; [cbn; tauto|reflexivity].
  - exists (TInt 64). split; [cbn; tauto|reflexivity].
Qed.
Example C07_nonvacuous :
  registered ex_ps ex_types /\ Forall (roomy ex_ps ex_d) ex_types /\
  keygen_args ex_ps ex_alpha ex_beta /\
  (** too large alpha; missing beta; IntModN value equal to its modulus *)
  generate_keys ex_aes ex_d 512 ex_beta 1 2 = Err INVALID_ARGUMENT /\
  generate_keys ex_aes ex_d 5 (firstn 2 ex_beta) 1 2 = Err INVALID_ARGUMENT /\
  generate_keys ex_aes ex_d 5
    [to_value (TInt 8) (VNum 7); to_value ex_tuple (VTup [VNum 1234; VNum 1000003]); to_value (TInt 64) (VNum 42)] 1 2
  = Err INVALID_ARGUMENT.
Proof.
  split; [exact ex_registered|]. split; [repeat constructor; (eapply shape_roomy; [exact ex_created|reflexivity])|]. split; [|vm_compute; auto].
  split; [|reflexivity]. unfold ex_ps, ex_beta. constructor; [|constructor; [|constructor; [|constructor]]].
  - exists (TInt 8), (VNum 7). split; [reflexivity|]. split; [lden|]. apply to_value_repr; reflexivity.
  - exists ex_tuple, (VTup [VNum 1234; VNum 999999]). split; [reflexivity|].
    split; [lden|]. apply to_value_repr; reflexivity.
  - exists (TInt 64), (VNum 42). split; [reflexivity|]. split; [lden|]. apply to_value_repr; reflexivity.
Qed.

(** ** C08: generated keys are well formed and consistent *)
Theorem C08_generated_keys : forall aes F ps types d alpha beta seed0 seed1 k0 k1,
  created F ps types d -> alpha < 2 ^ 128 ->
  generate_keys aes d alpha beta seed0 seed1 = Ok (k0, k1) ->
  validate_dpf_key d k0 = Ok tt /\ validate_dpf_key d k1 = Ok tt /\
  (exists c0 c1, create_evaluation_context d k0 = Ok c0 /\ create_evaluation_context d k1 = Ok c1) /\
  k_party k0 = 0%Z /\ k_party k1 = 1%Z /\ k_seed k0 = Some seed0 /\ k_seed k1 = Some seed1 /\
  k_cws k0 = k_cws k1 /\ k_last k0 = k_last k1.
Proof.
  intros aes F ps types d alpha beta seed0 seed1 k0 k1 HC Ha HG.
  destruct (created_wf _ _ _ _ HC) as (W & _).
  destruct (gen_keys_ok aes d W alpha beta seed0 seed1 k0 k1 Ha HG) as [K0 K1].
  destruct (generate_keys_level aes d W _ _ _ _ _ _ Ha HG) as (H1 & H2 & H3 & H4 & H5 & H6 & _).
  split; [exact K0|]. split; [exact K1|]. split.
  - unfold create_evaluation_context. rewrite K0, K1. cbn [bind]. eauto.
  - repeat split; auto.
Qed.
Print Assumptions C08_generated_keys.
Example C08_nonvacuous :
  validate_dpf_key ex_d ex_k0 = Ok tt /\ validate_dpf_key ex_d ex_k1 = Ok tt /\
  k_cws ex_k0 = k_cws ex_k1 /\ length (k_cws ex_k0) = 8%nat /\ ex_k0 <> ex_k1.
Proof. vm_compute. repeat split; discriminate. Qed.

(** ** C09: Create accepts exactly the documented parameters *)
Theorem C09_create_rejects : forall F ps, ~ documented ps -> create_incremental F ps = Err INVALID_ARGUMENT.
Proof. exact create_rejects. Qed.
Print Assumptions C09_create_rejects.
(** Missing from C09: tuples without elements and tuples of millions of elements (see
    C09_create_refuted). *)
Theorem C09_no_crash_partial : forall F ps,
  Forall (fun p => no_empty_tuple (p_type p) = true /\ (leaves (p_type p) < 2 ^ 23)%Z) ps ->
  safe (create_incremental F ps).
Proof. exact create_safe. Qed.
Print Assumptions C09_no_crash_partial.
(** Missing from C09: tuples with different IntModN elements (see C09_create_refuted) and
    security parameters that sampling cannot reach. *)
Theorem C09_create_accepts_partial : forall F ps, documented ps ->
  Forall (fun p => (leaves (p_type p) < 2 ^ 23)%Z /\ exists T, cty_ok T = true /\ denotes (p_type p) T /\
            (is_direct T = true \/
             uniform T /\ samples_securely F (p_sec p) T /\ samples_securely F (p_sec (with_default_sec p)) T)) ps ->
  exists d, create_incremental F ps = Ok d.
Proof. exact create_accepts. Qed.
Print Assumptions C09_create_accepts_partial.
Lemma uint128s_facts : forall n, (0 < n)%nat -> let T := TTup (repeat (TInt 128) n) in
  cty_ok T = true /\ is_direct T = true /\ leaf_bytes T = (16 * n)%nat /\
  validate_value_type (to_value_type T) = Ok tt /\ no_empty_tuple (to_value_type T) = true.
Proof.
  intros n Hn T. subst T. cbn [cty_ok is_direct leaf_bytes to_value_type validate_value_type no_empty_tuple].
  assert (H1 : forallb cty_ok (repeat (TInt 128) n) = true) by (clear Hn; induction n; auto).
  assert (H2 : forallb is_direct (repeat (TInt 128) n) = true) by (clear Hn; induction n; auto).
  assert (H3 : fold_right (fun t acc => (leaf_bytes t + acc)%nat) 0%nat (repeat (TInt 128) n) = (16 * n)%nat).
  { clear Hn H1 H2. induction n; auto. cbn [repeat fold_right]. rewrite IHn. change (leaf_bytes (TInt 128)) with 16%nat. lia. }
  assert (H4 : iterM validate_value_type (map to_value_type (repeat (TInt 128) n)) = Ok tt).
  { clear. induction n; auto. }
  assert (H5 : forallb no_empty_tuple (map to_value_type (repeat (TInt 128) n)) = true) by (clear; induction n; auto).
  rewrite H1, H2, H5. repeat split; auto.
  - destruct n; [lia|reflexivity].
  - rewrite map_length, repeat_length. destruct n; [lia|reflexivity].
Qed.
(** The full claim is false: an empty tuple is accepted by the validation and then makes
    Create convert log2(0) = -infinity to int; a tuple of two different IntModN types is
    well formed but rejected with UNIMPLEMENTED; and the number of bits of a tuple of 2^24
    128-bit integers does not fit into the int that BitsNeeded returns. *)
Theorem C09_create_refuted :
  (exists F ps, documented ps /\ create_incremental F ps = UB) /\
  (exists F ps, documented ps /\ create_incremental F ps = Err UNIMPLEMENTED) /\
  (forall F, exists ps, documented ps /\ Forall (fun p => no_empty_tuple (p_type p) = true) ps /\
     create_incremental F ps = UB).
Proof.
  assert (HD : forall t, validate_value_type t = Ok tt ->
     documented [{| p_ld := 3; p_vt := Some t; p_sec := DFin 40 |}]).
  { intros t Ht. apply validate_parameters_iff. unfold validate_parameters. cbn. rewrite Ht. reflexivity. }
  split; [|split].
  - exists ex_F, [{| p_ld := 3; p_vt := Some (PTTuple []); p_sec := DFin 40 |}].
    split; [apply HD; reflexivity|vm_compute; reflexivity].
  - exists ex_F, [{| p_ld := 3; p_vt := Some (to_value_type (TTup [TMod 32 5; TMod 32 7])); p_sec := DFin 40 |}].
    split; [apply HD; reflexivity|vm_compute; reflexivity].
  - intros F. assert (Hn : (2147483647 < 128 * Z.of_nat (N.to_nat (2 ^ 24)))%Z) by lia.
    revert Hn. generalize (N.to_nat (2 ^ 24)) as n. intros n Hn.
    set (T := TTup (repeat (TInt 128) n)).
    exists [{| p_ld := 3; p_vt := Some (to_value_type T); p_sec := DFin 40 |}].
    destruct (uint128s_facts n ltac:(lia)) as (Hok & Hdir & Hbytes & Hval & Hne). fold T in Hok, Hdir, Hbytes, Hval, Hne.
    split; [apply HD; exact Hval|]. split; [constructor; [exact Hne|constructor]|].
    assert (HB : forall sec, bits_needed F (to_value_type T) sec = UB).
    { intros sec. rewrite bits_needed_direct_int by auto. apply int_or_ub_ub. rewrite Hbytes. lia. }
    unfold create_incremental, validator_create.
    rewrite (proj2 (validate_parameters_iff _) (HD _ Hval)). cbn [bind map tree_levels].
    rewrite with_default_sec_type. unfold p_type. cbn [p_vt]. rewrite HB. reflexivity.
Qed.
Print Assumptions C09_create_refuted.
Example C09_nonvacuous :
  documented ex_ps /\ Forall (fun p => no_empty_tuple (p_type p) = true /\ (leaves (p_type p) < 2 ^ 23)%Z) ex_ps /\
  uniform ex_tuple /\ samples_securely ex_F (DFin 40) ex_tuple /\
  ~ documented (ex_ps ++ ex_ps) /\ create_incremental ex_F (ex_ps ++ ex_ps) = Err INVALID_ARGUMENT.
Proof.
  split; [apply validate_parameters_iff; reflexivity|]. split; [repeat constructor|]. split; [|split].
  - constructor; [repeat constructor|]. intros w m w' m' H H'. cbn in H, H'.
    destruct H as [H|[H|[]]]; try discriminate. destruct H' as [H'|[H'|[]]]; try discriminate. inv H. inv H'. auto.
  - constructor; [|reflexivity]. intros t [<-|[<-|[]]]; constructor. reflexivity.
  - split; [|vm_compute; reflexivity]. intros H. apply validate_parameters_iff in H. discriminate.
Qed.

(** ** C10: hierarchy levels map to distinct tree levels that fit domain and packing *)
Theorem C10_tree_levels : forall F ps types d, created F ps types d ->
  length (d_h2t d) = length ps /\
  (forall h h', (h < h')%nat -> (h' < length ps)%nat -> (nth h (d_h2t d) 0 < nth h' (d_h2t d) 0)%nat) /\
  (forall h, (h < length ps)%nat -> N.of_nat (nth h (d_h2t d) 0%nat) <= level_ld ps h) /\
  (forall h T, level_has ps h T ->
     2 ^ (level_ld ps h - N.of_nat (nth h (d_h2t d) 0%nat)) <= N.of_nat (elements_per_block T)).
Proof.
  intros F ps types d HC. destruct (created_wf _ _ _ _ HC) as (W & _). pose proof (created_len _ _ _ _ HC) as HL.
  split; [rewrite (wf_len _ W); auto|]. split; [|split].
  - intros h h' Hh Hh'. apply (wf_h2t_mono _ W h h'); lia.
  - intros h Hh. rewrite (created_ld _ _ _ _ _ HC) by auto. pose proof (wf_h2t_ld _ W h ltac:(lia)). unfold h2t in *. lia.
  - intros h T HT. pose proof (level_has_lt _ _ _ HT) as Hh. rewrite (created_ld _ _ _ _ _ HC) by auto.
    pose proof (wf_epb _ W h T (level_has_type _ _ _ _ _ _ HC HT)) as HE. unfold block_bits, h2t in HE.
    replace (N.of_nat (ld d h) - N.of_nat (nth h (d_h2t d) 0%nat)) with (N.of_nat (ld d h - nth h (d_h2t d) 0)%nat) by lia.
    rewrite <- pow2_nat_N. lia.
Qed.
Print Assumptions C10_tree_levels.
Example C10_nonvacuous : d_h2t ex_d = [0; 6; 8]%nat /\ elements_per_block (TInt 8) = 16%nat.
Proof. vm_compute. auto. Qed.

(** ** C11: evaluation never crashes or has undefined behaviour on untrusted keys *)

(** Missing from C11: types for which Create reserves too few bytes, where the claim is
    false (C11_untrusted_keys_refuted, C11_without_room).  The template argument T has to
    match the level. *)
Theorem C11_untrusted_keys_partial : forall aes F ps types d key,
  created F ps types d ->
  safe (create_evaluation_context d key) /\
  (forall T h points, ((0 <= h < Z.of_nat (length ps))%Z -> level_has ps (Z.to_nat h) T) -> roomy ps d T ->
     safe (evaluate_at aes d T key h points)) /\
  (forall S T keys points (op : S -> list cval -> S * bool) rs s,
     (forall h, (h < length ps)%nat -> level_has ps h T) -> roomy ps d T ->
     Forall (fun x => x < 2 ^ 128) points ->
     safe (evaluate_and_apply aes d T keys points op rs s)).
Proof.
  intros aes F ps types d key HC. destruct (created_wf _ _ _ _ HC) as (W & _). pose proof (created_len _ _ _ _ HC) as HL.
  split; [|split].
  - unfold create_evaluation_context. apply bind_safe; [|intros; apply ok_safe].
    apply ooi_safe, validate_dpf_key_ooi. auto.
  - intros T h points HT HS. apply evaluate_at_safe; auto. rewrite HL. intros Hh. specialize (HT Hh).
    split; [eapply level_has_type; eauto|eapply roomy_enough; eauto].
  - intros S T keys points op rs s HT HS HP. apply evaluate_and_apply_safe; auto.
    rewrite HL. intros h Hh. specialize (HT h Hh). split; [eapply level_has_type; eauto|eapply roomy_enough; eauto].
Qed.
Print Assumptions C11_untrusted_keys_partial.
(** The full claim is false: with the value type of C17's counterexample, EvaluateAt
    aborts on every key that passes validation. *)
Definition c11_ps : list param := [ {| p_ld := 3; p_vt := Some (to_value_type c17_bad); p_sec := DFin 40 |} ].
Definition c11_key : dkey :=
  {| k_seed := Some 1; k_cws := repeat {| cw_seed := 5; cw_left := true; cw_right := false; cw_values := [] |} 3;
     k_party := 0; k_last := [to_value c17_bad (VTup [VTup [VNum 0]; VNum 0; VNum 0])] |}.
Theorem C11_untrusted_keys_refuted : exists aes F ps types d key T h points,
  created F ps types d /\ level_has ps h T /\ evaluate_at aes d T key (Z.of_nat h) points = Crash.
Proof.
  exists ex_aes, ex_F, c11_ps, [], (ex_create ex_F c11_ps []), c11_key, c17_bad, 0%nat, [5].
  split; [|split].
  - exists (ex_create ex_F c11_ps []). split; [vm_compute; reflexivity|]. split; [constructor|reflexivity].
  - split; [reflexivity|]. eexists. split; [reflexivity|]. apply to_value_type_denotes. reflexivity.
  - vm_compute. reflexivity.
Qed.
Print Assumptions C11_untrusted_keys_refuted.
(** The types covered by C11_untrusted_keys_partial include those of C17's theorem ... *)
Theorem C11_roomy : forall F ps types d T, created F ps types d -> bits_shape T = true -> roomy ps d T.
Proof. intros F ps types d T HC HS. eapply shape_roomy; eauto. Qed.
Print Assumptions C11_roomy.
(** ... and for all others the condition is exact: without the bytes, no evaluation of any key
    returns a value.  It is rejected or aborts, but has no undefined behaviour. *)
Theorem C11_without_room : forall aes F ps types d key T h points,
  created F ps types d -> level_has ps h T -> (16 * nth h (d_blocks d) 0 < bytes_consumed T)%nat -> points <> [] ->
  match evaluate_at aes d T key (Z.of_nat h) points with Err _ | Crash => True | _ => False end.
Proof.
  intros aes F ps types d key T h points HC HT HN Hp. destruct (created_wf _ _ _ _ HC) as (W & _).
  apply evaluate_at_no_room; auto.
  - pose proof (level_has_lt _ _ _ HT). pose proof (created_len _ _ _ _ HC). lia.
  - eapply level_has_type; eauto.
  - intros HE. apply enough_bytes_consumed in HE; [|exact (proj1 HT)]. unfold blocks in HE. lia.
Qed.
Print Assumptions C11_without_room.
(** A nested tuple of IntModNs, outside C17's theorem, for which there is room. *)
Definition c11_nested : cty := TTup [TTup [TMod 32 4294967291; TInt 64]; TMod 32 4294967291].
Definition c11_nested_ps : list param := [ {| p_ld := 3; p_vt := Some (to_value_type c11_nested); p_sec := DFin 40 |} ].
Example C11_roomy_nonvacuous :
  bits_shape c11_nested = false /\
  level_has c11_nested_ps 0 c11_nested /\ roomy c11_nested_ps (ex_create ex_F c11_nested_ps []) c11_nested /\
  level_has c11_ps 0 c17_bad /\ (16 * nth 0 (d_blocks (ex_create ex_F c11_ps [])) 0 < bytes_consumed c17_bad)%nat.
Proof.
  split; [reflexivity|]. split.
  { split; [reflexivity|]. eexists. split; [reflexivity|]. apply to_value_type_denotes. reflexivity. }
  split.
  { intros h HT. pose proof (level_has_lt _ _ _ HT) as Hh. destruct h as [|h]; [|cbn in Hh; lia].
    apply Nat.leb_le. vm_compute. reflexivity. }
  split.
  { split; [reflexivity|]. eexists. split; [reflexivity|]. apply to_value_type_denotes. reflexivity. }
  apply Nat.ltb_lt. vm_compute. reflexivity.
Qed.
Example C11_nonvacuous :
  level_has ex_ps 1 ex_tuple /\ roomy ex_ps ex_d ex_tuple /\
  evaluate_at ex_aes ex_d ex_tuple {| k_seed := Some 3; k_cws := []; k_party := -7; k_last := [PVUnset] |} 1 [5]
  = Err INVALID_ARGUMENT /\
  exists v, evaluate_at ex_aes ex_d ex_tuple
    {| k_seed := k_seed ex_k0; k_cws := k_cws ex_k0; k_party := -7; k_last := [PVUnset] |} 1 [5] = Ok [v].
Proof.
  split; [exact ex_level_1|]. split; [eapply shape_roomy; [exact ex_created|reflexivity]|].
  vm_compute. repeat split. eexists. reflexivity.
Qed.

(** ** C12: untrusted evaluation contexts *)

(** Missing from C12: contexts whose partial_evaluations_level is not a level (see
    C12_untrusted_contexts_refuted and C12_exact), types without room (C11), and expansions that do
    not fit into memory.  EvaluateUntil reads the level only if there are prefixes, and checks it
    from above if there are partial evaluations. *)
Theorem C12_untrusted_contexts_partial : forall aes F ps types d c T,
  created F ps types d -> cty_ok T = true -> roomy ps d T ->
  (forall h points, ((0 <= h < Z.of_nat (length ps))%Z -> level_has ps (Z.to_nat h) T) ->
     (0 <= c_plevel c < Z.of_nat (length ps))%Z ->
     safe (fst (evaluate_at_ctx aes d T h points c))) /\
  (forall h prefixes, Forall (fun p => p < 2 ^ 128) prefixes ->
     expansion_fits d (match prefixes with [] => None | _ => Some (Z.to_nat (c_prev c)) end) (Z.to_nat h) prefixes ->
     (prefixes <> [] -> 0 <= c_plevel c /\ (c_partials c = [] -> c_plevel c < Z.of_nat (length ps)))%Z ->
     safe (fst (evaluate_until aes d T h prefixes c))).
Proof.
  intros aes F ps types d c T HC Hok HS. destruct (created_wf _ _ _ _ HC) as (W & _). pose proof (created_len _ _ _ _ HC) as HL.
  split.
  - intros h points HT Hpl. apply evaluate_at_ctx_safe; auto; rewrite HL; auto. intros Hh. specialize (HT Hh).
    split; [eapply level_has_type; eauto|eapply roomy_enough; eauto].
  - intros h prefixes HP HF Hpl. apply evaluate_until_safe; auto; try (rewrite HL; auto).
    + intros Hh HT. eapply roomy_enough; eauto; eapply level_type_has; eauto.
    + unfold until_memory, prev_tree. unfold expansion_fits in HF. destruct prefixes; exact HF.
Qed.
Print Assumptions C12_untrusted_contexts_partial.
(** For all other contexts, a call is rejected or has undefined behaviour: it never returns. *)
Theorem C12_exact : forall aes F ps types d c T h,
  created F ps types d -> cty_ok T = true ->
  (c_plevel c < 0 \/ Z.of_nat (length ps) <= c_plevel c)%Z ->
  (forall points, points <> [] ->
     fst (evaluate_at_ctx aes d T h points c) = Err INVALID_ARGUMENT \/ fst (evaluate_at_ctx aes d T h points c) = UB) /\
  (forall prefixes, prefixes <> [] ->
     fst (evaluate_until aes d T h prefixes c) = Err INVALID_ARGUMENT \/ fst (evaluate_until aes d T h prefixes c) = UB).
Proof.
  intros aes F ps types d c T h HC Hok Hpl. destruct (created_wf _ _ _ _ HC) as (W & _). pose proof (created_len _ _ _ _ HC) as HL.
  rewrite <- HL in Hpl. split; intros; [apply at_ctx_bad_level|apply until_bad_level]; auto.
Qed.
Print Assumptions C12_exact.
(** The full claim is false: ValidateEvaluationContext does not check
    partial_evaluations_level from below, and EvaluateAt does not validate the context
    at all; hierarchy_to_tree_ is then read out of bounds. *)
Definition c12_ctx : ectx :=
  {| c_params := d_params ex_d; c_key := Some ex_k0; c_prev := 0; c_partials := []; c_plevel := -1 |}.
Theorem C12_untrusted_contexts_refuted : exists aes F ps types d c T,
  created F ps types d /\ validate_evaluation_context d c = Ok tt /\ level_has ps 1 T /\
  fst (evaluate_until aes d T 1 [2] c) = UB /\ fst (evaluate_at_ctx aes d T 1 [2] c) = UB.
Proof.
  exists ex_aes, ex_F, ex_ps, ex_types, ex_d, c12_ctx, ex_tuple.
  split; [exact ex_created|]. split; [vm_compute; reflexivity|]. split; [exact ex_level_1|].
  split; vm_compute; reflexivity.
Qed.
Print Assumptions C12_untrusted_contexts_refuted.
(** A context with inconsistent partial evaluations. *)
Example C12_nonvacuous :
  let c := {| c_params := d_params ex_d; c_key := Some ex_k0; c_prev := 1;
              c_partials := [{| pe_prefix := 2; pe_seed := 77; pe_bit := true |};
                             {| pe_prefix := 2; pe_seed := 78; pe_bit := true |}]; c_plevel := 0 |} in
  let c' := {| c_params := d_params ex_d; c_key := Some ex_k0; c_prev := -1; c_partials := []; c_plevel := 99 |} in
  is_ok (fst (evaluate_until ex_aes ex_d (TInt 8) 0 [] c')) = true /\ fst (evaluate_at_ctx ex_aes ex_d (TInt 8) 0 [1] c') = UB /\
  expansion_fits ex_d (Some 1%nat) 2 [7] /\
  fst (evaluate_until ex_aes ex_d (TInt 64) 2 [7] c) = Err INVALID_ARGUMENT.
Proof. split; [vm_compute; reflexivity|]. split; [vm_compute; reflexivity|]. split; [|vm_compute; reflexivity]. split; [|vm_compute; reflexivity]. right. vm_compute. lia. Qed.

(** ** C13: EvaluateUntil rejects invalid calls *)
Theorem C13_until_rejects : forall aes F ps types d T h prefixes c,
  created F ps types d -> cty_ok T = true -> bad_call ps (c_prev c) T h prefixes ->
  fst (evaluate_until aes d T h prefixes c) = Err INVALID_ARGUMENT.
Proof.
  intros aes F ps types d T h prefixes c HC Hok HB. rewrite (bad_call_rejected aes F ps types d) by auto. reflexivity.
Qed.
Print Assumptions C13_until_rejects.
(** Prefixes that are not extensions of previously evaluated prefixes are rejected if the
    values of the earlier level are not packed. *)
Theorem C13_not_extension : forall aes F ps types d key c q' q l h T prefixes p Tq,
  created F ps types d -> (forall k, (k < length ps)%nat -> exists T, level_has ps k T) ->
  after aes d ps key c (Some q') (Some (q, l)) ->
  cty_ok T = true -> Forall (fun p => p < 2 ^ 128) prefixes -> In p prefixes ->
  level_has ps q Tq -> elements_per_block Tq = 1%nat ->
  ~ extends ps (Some (q, l)) q' p ->
  fst (evaluate_until aes d T h prefixes c) = Err INVALID_ARGUMENT.
Proof.
  intros aes F ps types d key c q' q l h T prefixes p Tq HC HTy HA Hok HP Hp HT He Hx.
  rewrite (until_not_extension_unpacked aes F ps types d HC HTy key c q' q l h T prefixes p Tq); auto.
Qed.
Print Assumptions C13_not_extension.
(** For packed values the check is only exact up to the block that holds the value.
    Missing from C13: the check within a block (see C13_not_extension_refuted). *)
Theorem C13_not_extension_partial : forall aes F ps types d key c q' q l h T prefixes p,
  created F ps types d -> (forall k, (k < length ps)%nat -> exists T, level_has ps k T) ->
  after aes d ps key c (Some q') (Some (q, l)) ->
  cty_ok T = true -> Forall (fun p => p < 2 ^ 128) prefixes -> In p prefixes ->
  let m := 2 ^ (level_ld ps q - N.of_nat (nth q (d_h2t d) 0%nat)) in
  (forall y, In y l -> y / m <> p / 2 ^ (level_ld ps q' - level_ld ps q) / m) ->
  fst (evaluate_until aes d T h prefixes c) = Err INVALID_ARGUMENT.
Proof.
  intros aes F ps types d key c q' q l h T prefixes p HC HTy HA Hok HP Hp m Hm.
  rewrite (until_not_extension aes F ps types d HC HTy key c q' q l h T prefixes p); auto.
Qed.
Print Assumptions C13_not_extension_partial.
(** The full claim is false for packed values: after evaluating only the extensions of
    prefixes 3 and 2 of level 0, a prefix of level 1 below 0 is accepted. *)
Definition ex13_c := Eval vm_compute in snd (evaluate_until ex_aes ex_d (TInt 64) 2 [5] ex5_c2).
Definition ex13_r := Eval vm_compute in val_of (evaluate_until ex_aes ex_d (TInt 64) 2 [5] ex5_c2).
Theorem C13_not_extension_refuted : exists aes F ps types d key c q' q l h T prefixes p r c',
  created F ps types d /\ after aes d ps key c (Some q') (Some (q, l)) /\
  In p prefixes /\ ~ extends ps (Some (q, l)) q' p /\
  evaluate_until aes d T h prefixes c = (Ok r, c').
Proof.
  exists ex_aes, ex_F, ex_ps, ex_types, ex_d, ex4_key, ex5_c2, 1%nat, 0%nat, [3; 2], 2%Z, (TInt 64), [5], 5,
    ex13_r, ex13_c.
  split; [exact ex_created|]. split; [exact ex5_after2|]. split; [left; auto|]. split; [|vm_compute; reflexivity].
  vm_compute. intros [H|[H|[H|[]]]]; try discriminate. inversion H.
Qed.
Print Assumptions C13_not_extension_refuted.
Example C13_nonvacuous :
  bad_call ex_ps 0 (TInt 8) 1 [2] /\ bad_call ex_ps 0 ex_tuple 1 [4] /\ bad_call ex_ps 1 ex_tuple 1 [4] /\
  elements_per_block ex_tuple = 1%nat.
Proof.
  split; [|split; [|split; [|reflexivity]]].
  - apply bad_type. intros (_ & p & Hp & HD). vm_compute in Hp. inv Hp. apply denotes_inv in HD. discriminate.
  - apply (bad_range _ _ _ _ _ 4); [left; auto|]. vm_compute. split; [discriminate|reflexivity].
  - apply bad_order. lia.
Qed.

