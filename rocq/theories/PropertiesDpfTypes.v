(** C53: evaluations with a template argument that is not the value type of the level. *)
From Coq Require Import List NArith ZArith QArith Lia Bool ZifyBool ZifyNat ZifyN.
From Verif Require Import Base ListUtil ValueTypesModel ValueTypesSpec ValueTypesProofs TypeProofs DpfModel DpfTree DpfWf DpfSpec DpfGen DpfEval DpfCreate
  DpfReach DpfSafe DpfFacts DpfPoint DpfHist DpfExamples DpfPrivacySpec DpfPrivacy DpfShape DpfHide PropertiesPrivacy.
Import ListNotations.
Ltac Zify.zify_post_hook ::= Z.div_mod_to_equations.
Open Scope N_scope.

(** EvaluateUntil and EvaluateNext return INVALID_ARGUMENT for every other type, on every
    context, and do not change the context. *)
Theorem C53_until : forall aes F ps types d T h prefixes c, created F ps types d -> cty_ok T = true ->
  ((0 <= h)%Z -> ~ level_has ps (Z.to_nat h) T) ->
  evaluate_until aes d T h prefixes c = (Err INVALID_ARGUMENT, c).
Proof.
  intros aes F ps types d T h prefixes c HC HT HN. destruct (created_wf _ _ _ _ HC) as (W & _).
  unfold evaluate_until. pose proof (until_checks_ooi d W T h prefixes c) as HO.
  destruct (evaluate_until_checks d T h prefixes c) as [g|e| |] eqn:E; cbn [ok_or_invalid] in HO; try contradiction.
  - exfalso. destruct (until_checks_inv d W _ _ _ _ _ HT E) as (Hh & HL & _).
    apply HN; [lia|]. eapply level_type_has; eauto.
  - subst. reflexivity.
Qed.
Print Assumptions C53_until.

(** EvaluateNext evaluates the first level if there are no prefixes, and the level after the
    previous one otherwise. *)
Theorem C53_next : forall aes F ps types d T prefixes c, created F ps types d -> cty_ok T = true ->
  (prefixes = [] -> ~ level_has ps 0 T) ->
  (prefixes <> [] -> (0 <= c_prev c + 1)%Z -> ~ level_has ps (Z.to_nat (c_prev c + 1)) T) ->
  evaluate_next aes d T prefixes c = (Err INVALID_ARGUMENT, c).
Proof. intros aes F ps types d T prefixes c HC HT H0 H1.
  unfold evaluate_next. destruct prefixes as [|p prefixes]; cbn [length Nat.eqb].
  - eapply C53_until; eauto.
  - eapply C53_until; eauto. apply H1. discriminate.
Qed.
Print Assumptions C53_next.

Lemma key_shape_values : forall F ps types d party key h U, created F ps types d -> key_shape ps d party key ->
  (h < length ps)%nat -> level_has ps h U -> length (key_values d key h) = elements_per_block U.
Proof.
  intros F ps types d party key h U HC HK Hh HU. pose proof (created_wf _ _ _ _ HC) as (W & HL & _).
  unfold key_values, nlevels. rewrite HL. destruct (Nat.ltb_spec h (length ps - 1)) as [E|E].
  - destruct (nth_error (k_cws key) (h2t d h)) as [cw|] eqn:Ecw.
    + destruct (ks_level _ _ _ _ HK h cw ltac:(lia) Ecw) as (T & HT & es & Hes & _ & ->). rewrite map_length, Hes.
      f_equal. destruct HT as (_ & p & Hp & HD), HU as (_ & q & Hq & HD'). rewrite Hq in Hp. inv Hp. eapply denotes_fun; eauto.
    + exfalso. apply nth_error_None in Ecw. rewrite (ks_cws _ _ _ _ HK), (wf_levels _ W) in Ecw.
      assert (h < nlevels d - 1)%nat by (unfold nlevels; lia).
      pose proof (wf_h2t_mono _ W h (nlevels d - 1) ltac:(lia) ltac:(unfold nlevels; lia)). lia.
  - assert (h = length ps - 1)%nat as -> by lia.
    destruct (ks_last _ _ _ _ HK) as (T & HT & es & Hes & _ & ->). rewrite map_length, Hes.
    f_equal. destruct HT as (_ & p & Hp & HD), HU as (_ & q & Hq & HD'). rewrite Hq in Hp. inv Hp. eapply denotes_fun; eauto.
Qed.

(** EvaluateAt rejects a type with another number of elements per block, with every key that
    the code generates. Missing for the full claim (INVALID_ARGUMENT for every other type, as
    EvaluateUntil): types with the same number of elements, see the refutations below. *)
Theorem C53_at_partial : forall aes F ps types d alpha beta s0 s1 k0 k1 key h T U points,
  created F ps types d -> alpha < 2 ^ 128 -> generate_keys aes d alpha beta s0 s1 = Ok (k0, k1) ->
  key = k0 \/ key = k1 ->
  level_has ps h U -> elements_per_block T <> elements_per_block U -> points <> [] ->
  evaluate_at aes d T key (Z.of_nat h) points = Err INVALID_ARGUMENT.
Proof.
  intros aes F ps types d alpha beta s0 s1 k0 k1 key h T U points HC Ha HG Hkey HU HE Hne.
  pose proof (created_wf _ _ _ _ HC) as (W & HL & _).
  assert (HK : key_ok d key).
  { destruct (gen_keys_ok aes d W _ _ _ _ _ _ Ha HG). destruct Hkey as [-> | ->]; auto. }
  assert (HS : exists party, key_shape ps d party key).
  { destruct (C47_shape _ _ _ _ HC _ _ _ _ _ _ _ Ha HG). destruct Hkey as [-> | ->]; eauto. }
  destruct HS as (party & HS). clear Hkey HG.
  assert (Hh : (h < length ps)%nat). { destruct HU as (_ & p & Hp & _). apply nth_error_Some. congruence. }
  pose proof (key_shape_values _ _ _ _ _ _ _ _ HC HS Hh HU) as HV.
  assert (Hh' : (h < nlevels d)%nat) by (unfold nlevels; lia).
  unfold evaluate_at. pose proof (at_checks_ooi d W key (Z.of_nat h) points) as HO.
  destruct (evaluate_at_checks d key (Z.of_nat h) points) as [[]|e| |] eqn:E; cbn [ok_or_invalid] in HO; try contradiction.
  2:{ subst. reflexivity. }
  apply (at_checks_inv d W) in E. destruct E as (_ & _ & HF). rewrite Nat2Z.id in *. cbn [bind].
  destruct (Nat.eqb_spec (length points) 0) as [E|_]; [destruct points; [congruence|discriminate]|].
  unfold evaluate_at_finish. unfold at_or_ub at 1. rewrite h2t_nth_error by auto. cbn [bind].
  pose proof (key_ok_h2t d W key h HK Hh') as Hlen.
  rewrite subspan_ok by lia. cbn [bind].
  assert (HP : Forall (fun x => x < P128) points).
  { eapply Forall_impl; [|exact HF]. cbv beta. intros x Hx. eapply N.lt_le_trans; [exact Hx|].
    apply pow_le_P128. pose proof (ld_le_128 d W h). lia. }
  rewrite evaluate_seeds_walk.
  2:{ unfold evaluate_at_indices. destruct (Nat.ltb _ _); rewrite ?map_length; auto. }
  2:{ unfold evaluate_at_indices. destruct (Nat.ltb _ _); auto. rewrite Forall_map. eapply Forall_impl; [|exact HP]. cbv beta. intros x Hx.
      unfold domain_to_tree_index. rewrite N.shiftr_div_pow2.
      eapply N.le_lt_trans; [|exact Hx]. apply N.div_le_upper_bound; [apply N.pow_nonzero; lia|].
      pose proof (pow2_pos (N.of_nat (block_bits d h))). nia. }
  cbn [bind]. rewrite value_correction_values by (auto using key_ok_len).
  unfold values_to_array. rewrite HV.
  destruct (Nat.eqb_spec (elements_per_block U) (elements_per_block T)); [congruence|]. reflexivity.
Qed.
Print Assumptions C53_at_partial.

(** ** Refutations *)

(** Generated keys evaluated with another type than the level's: both evaluations return Ok,
    and the results do not add up to anything the key generation was given. *)
Definition xy_wrong : cty := TTup [TInt 32; TMod 32 1000033].
Theorem C53_at_refuted :
  exists aes F ps types d alpha beta s0 s1 k0 k1 h T v0 v1,
    created F ps types d /\ generate_keys aes d alpha beta s0 s1 = Ok (k0, k1) /\
    cty_ok T = true /\ ~ level_has ps h T /\
    evaluate_at aes d T k0 (Z.of_nat h) [alpha_prefix ps alpha h] = Ok [v0] /\
    evaluate_at aes d T k1 (Z.of_nat h) [alpha_prefix ps alpha h] = Ok [v1] /\
    forall b, nth_error beta h = Some b -> to_value T (vadd T v0 v1) <> b.
Proof.
  exists ex_aes, ex_F, ex_ps, ex_types, ex_d, ex_alpha, ex_beta, 0x0123456789abcdef0123456789abcdef, 0xfedcba98765432100123456789abcdef,
    ex_k0, ex_k1, 1%nat, xy_wrong, (VTup [VNum 3151231417; VNum 459912]), (VTup [VNum 2086472473; VNum 507194]).
  split; [exact ex_created|]. split; [exact ex_generated|]. split; [reflexivity|].
  split.
  { intros (_ & p & Hp & HD). destruct ex_level_1 as (_ & q & Hq & HD'). rewrite Hp in Hq. inv Hq.
    pose proof (denotes_fun _ _ _ HD HD') as E. discriminate E. }
  split; [vm_compute; reflexivity|]. split; [vm_compute; reflexivity|].
  intros b Hb. vm_compute in Hb. inv Hb. vm_compute. discriminate.
Qed.
Print Assumptions C53_at_refuted.

(** A generated key for a level of pairs of 64-bit integers, evaluated as pairs of 128-bit
    integers: the process aborts (ABSL_CHECK in ConvertBytesToArrayOf). *)
Definition xy_pair : cty := TTup [TInt 64; TInt 64].
Definition xy_ps : list param := [ {| p_ld := 3; p_vt := Some (to_value_type xy_pair); p_sec := DFin 40 |} ].
Definition xy_d : dpf := Eval vm_compute in ex_create ex_F xy_ps [xy_pair].
Definition xy_beta : list pvalue := [to_value xy_pair (VTup [VNum 3; VNum 4])].
Definition xy_keys : dkey * dkey := Eval vm_compute in
  match generate_keys ex_aes xy_d 5 xy_beta 0x0123456789abcdef0123456789abcdef 0xfedcba98765432100123456789abcdef with
  | Ok ks => ks | _ => (ex_k0, ex_k1) end.
Theorem C53_at_abort_refuted :
  exists aes F ps types d alpha beta s0 s1 k0 k1 h T x,
    created F ps types d /\ generate_keys aes d alpha beta s0 s1 = Ok (k0, k1) /\
    cty_ok T = true /\ x < 2 ^ level_ld ps h /\
    evaluate_at aes d T k0 (Z.of_nat h) [x] = Crash /\ evaluate_at aes d T k1 (Z.of_nat h) [x] = Crash.
Proof.
  exists ex_aes, ex_F, xy_ps, [xy_pair], xy_d, 5, xy_beta, 0x0123456789abcdef0123456789abcdef, 0xfedcba98765432100123456789abcdef,
    (fst xy_keys), (snd xy_keys), 0%nat, (TTup [TInt 128; TInt 128]), 6.
  split. { exists (ex_create ex_F xy_ps []). split; [vm_compute; reflexivity|]. split; [repeat constructor|vm_compute; reflexivity]. }
  split; [vm_compute; reflexivity|]. split; [reflexivity|]. split; [vm_compute; reflexivity|].
  split; vm_compute; reflexivity.
Qed.
Print Assumptions C53_at_abort_refuted.

(** A key that passes validation, with two values at a level of bytes, evaluated as 64-bit
    integers: EvaluateAt reads past the end of an array of two elements. *)
Definition xy_key : dkey :=
  {| k_seed := k_seed ex_k0;
     k_cws := map (fun cw => {| cw_seed := cw_seed cw; cw_left := cw_left cw; cw_right := cw_right cw;
       cw_values := match cw_values cw with [] => [] | _ => [PVInteger (VI64 5); PVInteger (VI64 6)] end |}) (k_cws ex_k0);
     k_party := 1; k_last := k_last ex_k0 |}.
Theorem C53_at_ub_refuted :
  exists aes F ps types d key h T x,
    created F ps types d /\ validate_dpf_key d key = Ok tt /\ cty_ok T = true /\ x < 2 ^ level_ld ps h /\
    evaluate_at aes d T key (Z.of_nat h) [x] = UB.
Proof.
  exists ex_aes, ex_F, ex_ps, ex_types, ex_d, xy_key, 0%nat, (TInt 64), 3.
  split; [exact ex_created|]. split; [vm_compute; reflexivity|]. split; [reflexivity|]. split; [vm_compute; reflexivity|].
  vm_compute. reflexivity.
Qed.
Print Assumptions C53_at_ub_refuted.

(** ** The hypotheses can be met *)

Example C53_until_nonvacuous :
  created ex_F ex_ps ex_types ex_d /\ cty_ok (TInt 16) = true /\ ~ level_has ex_ps 0 (TInt 16) /\
  (exists vs, fst (evaluate_until ex_aes ex_d (TInt 8) 0 [] ex5_c0) = Ok vs).
Proof.
  split; [exact ex_created|]. split; [reflexivity|]. split.
  - intros (_ & p & Hp & HD). destruct ex_level_0 as (_ & q & Hq & HD'). rewrite Hp in Hq. inv Hq.
    pose proof (denotes_fun _ _ _ HD HD') as E. discriminate E.
  - eexists. vm_compute. reflexivity.
Qed.
Example C53_at_nonvacuous :
  generate_keys ex_aes ex_d ex_alpha ex_beta 0x0123456789abcdef0123456789abcdef 0xfedcba98765432100123456789abcdef = Ok (ex_k0, ex_k1) /\
  level_has ex_ps 0 (TInt 8) /\ elements_per_block (TInt 32) <> elements_per_block (TInt 8) /\
  (exists vs, evaluate_at ex_aes ex_d (TInt 8) ex_k0 0 [1; 2] = Ok vs) /\
  evaluate_at ex_aes ex_d (TInt 32) ex_k0 0 [1; 2] = Err INVALID_ARGUMENT.
Proof.
  split; [exact ex_generated|]. split; [exact ex_level_0|]. split; [vm_compute; discriminate|].
  split; [eexists; vm_compute; reflexivity|vm_compute; reflexivity].
Qed.
