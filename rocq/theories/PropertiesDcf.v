(** Properties of the distributed comparison function: C24-C26 and the DCF part of C46.
    See DcfSpec.v for the vocabulary. *)
From Coq Require Import List NArith ZArith QArith Lia Bool ZifyBool ZifyNat ZifyN.
From Verif Require Import Base ListUtil ValueTypesModel ValueTypesSpec ValueTypesProofs
  ConvProofs BitsProofs TypeProofs DpfModel DpfTree DpfWf DpfGen DpfEval DpfPoint DpfCtx DpfApply
  DpfSpec DpfHist DpfReach DpfSafe DpfCreate DpfFacts DpfExamples DcfModel DcfSpec DcfProofs DcfGen.
Import ListNotations.
Ltac Zify.zify_post_hook ::= Z.div_mod_to_equations.
Open Scope N_scope.

(** A DCF on 5-bit inputs with tuple values, and three key pairs. *)
Definition xd_p : param := {| p_ld := 5; p_vt := Some (to_value_type ex_tuple); p_sec := DFin 40 |}.
Definition no_dcf : dcf := {| dc_param := xd_p; dc_dpf := ex_d |}.
Definition xd_of (r : res dcf) : dcf := match r with Ok c => c | _ => no_dcf end.
Definition xd_c0 : dcf := Eval vm_compute in xd_of (dcf_create ex_F xd_p).
Definition xd_c : dcf := Eval vm_compute in dcf_register ex_tuple xd_c0.
Definition xd_pair_of (c : dcf) (alpha : N) (b : pvalue) : dcf_pair :=
  match dcf_generate_keys ex_aes c alpha b (2 ^ 100 + alpha) (2 ^ 90 + alpha) with
  | Ok (k0, k1) => {| dp_alpha := alpha; dp_beta := b; dp_key0 := k0; dp_key1 := k1 |}
  | _ => {| dp_alpha := 0; dp_beta := PVUnset; dp_key0 := ex_k0; dp_key1 := ex_k1 |}
  end.
Definition xd_beta (a b : N) : pvalue := to_value ex_tuple (VTup [VNum a; VNum b]).
Definition xd_gs : list dcf_pair := Eval vm_compute in
  [xd_pair_of xd_c 19 (xd_beta 1234 999999); xd_pair_of xd_c 31 (xd_beta 1 2); xd_pair_of xd_c 0 (xd_beta 5 6)].
Lemma xd_created : dcf_created ex_F xd_p [ex_tuple] xd_c.
Proof. exists xd_c0. split; [vm_compute; reflexivity|]. split; [repeat constructor|vm_compute; reflexivity]. Qed.
Lemma xd_has : dcf_has xd_p ex_tuple.
Proof. split; [reflexivity|]. lden. Qed.
Lemma xd_generated : Forall (dcf_generated ex_aes xd_c) xd_gs.
Proof.
  unfold xd_gs. apply Forall_cons; [|apply Forall_cons; [|apply Forall_cons; [|apply Forall_nil]]];
    (split; [reflexivity|]; eexists _, _).
  - instantiate (2 := 2 ^ 100 + 19). instantiate (1 := 2 ^ 90 + 19). vm_compute. reflexivity.
  - instantiate (2 := 2 ^ 100 + 31). instantiate (1 := 2 ^ 90 + 31). vm_compute. reflexivity.
  - instantiate (2 := 2 ^ 100 + 0). instantiate (1 := 2 ^ 90 + 0). vm_compute. reflexivity.
Qed.

(** ** C24: the values at x add up to beta if x < alpha and to zero otherwise *)

(** Missing from C24: value types containing XorWrapper, for which the statement is false
    (C24_xor_refuted), and batches for which the number of keys times the number of tree
    levels exceeds an int. *)
Theorem C24_single_partial : forall aes F p types c T g x,
  dcf_created F p types c -> (p_ld p <= 128)%Z -> dcf_has p T -> no_xor T = true ->
  dcf_generated aes c g -> x < 2 ^ Z.to_N (p_ld p) ->
  exists r0 r1 y,
    dcf_evaluate aes c T (dp_key0 g) x = Ok r0 /\ dcf_evaluate aes c T (dp_key1 g) x = Ok r1 /\
    gsum T r0 r1 y /\ compares T g x y.
Proof.
  intros aes F p types c T [alpha beta k0 k1] x HD Hn HT HX [Ha (s0 & s1 & HG)] Hx.
  cbn [dp_alpha dp_beta dp_key0 dp_key1] in *.
  destruct (dcf_shares aes F p types c HD Hn alpha beta s0 s1 k0 k1 Ha HG T HT HX x) as (r0 & r1 & y & H0 & H1 & _ & _ & HS & Hlt & Hge).
  { replace (N.of_nat (Z.to_nat (p_ld p))) with (Z.to_N (p_ld p)) by lia. exact Hx. }
  exists r0, r1, y. repeat split; auto.
Qed.
Print Assumptions C24_single_partial.

Theorem C24_batch_partial : forall aes F p types c T gs xs output,
  dcf_created F p types c -> (p_ld p <= 128)%Z -> dcf_has p T -> no_xor T = true ->
  Forall (dcf_generated aes c) gs -> Forall (fun x => x < 2 ^ Z.to_N (p_ld p)) xs ->
  length xs = length gs -> length output = length gs ->
  N.of_nat (length gs) * Z.to_N (p_ld p) < 2 ^ 31 ->
  exists r0 r1,
    dcf_batch_evaluate aes c T (map dp_key0 gs) xs output = Ok r0 /\
    dcf_batch_evaluate aes c T (map dp_key1 gs) xs output = Ok r1 /\
    length r0 = length gs /\ length r1 = length gs /\
    forall i g x v0 v1, nth_error gs i = Some g -> nth_error xs i = Some x ->
      nth_error r0 i = Some v0 -> nth_error r1 i = Some v1 ->
      exists y, gsum T v0 v1 y /\ compares T g x y.
Proof.
  intros aes F p types c T gs xs output HD Hn HT HX HG Hxs HL HLo HN.
  assert (HE : gs <> [] -> forall h, (h < Z.to_nat (p_ld p))%nat -> enough_bytes T (16 * blocks (dc_dpf c) h)).
  { intros Hne. destruct gs as [|g gs]; [congruence|]. inv HG. destruct H1 as (Ha & s0 & s1 & H).
    exact (dcf_enough aes F p types c HD Hn _ _ _ _ _ _ Ha H T HT). }
  assert (HB : forall f : dcf_pair -> dkey, dcf_batch_evaluate aes c T (map f gs) xs output
             = mapM (fun gx : dcf_pair * N => dcf_evaluate aes c T (f (fst gx)) (snd gx)) (combine gs xs)).
  { intros f. destruct gs as [|g gs].
    - destruct xs; [|discriminate]. destruct output; [|discriminate].
      rewrite (batch_valid_eq aes F p types c HD T HT Hn (map f []) []);
        solve [reflexivity | constructor | auto | intros Hc; exfalso; apply Hc; reflexivity].
    - rewrite (batch_is_single aes F p types c HD T HT Hn); rewrite ?map_length; auto.
      + clear. generalize (g :: gs). intros l. revert xs. induction l as [|a l IH]; intros [|x xs]; auto.
        cbn [map combine mapM fst snd]. rewrite IH. reflexivity.
      + eapply Forall_impl; [|exact Hxs]. intros x Hx. cbn beta in Hx. eapply N.lt_le_trans; [exact Hx|].
        change P128 with (2 ^ 128). apply N.pow_le_mono_r; [discriminate|]. clear - Hn. lia.
      + replace (N.of_nat (Z.to_nat (p_ld p))) with (Z.to_N (p_ld p)) by (clear; lia). exact HN.
      + apply HE. discriminate. }
  rewrite !HB. clear HB HE HLo HN. revert xs HL Hxs. induction HG as [|g gs Hg HG IH]; intros [|x xs] HL Hxs; try discriminate.
  - exists [], []. cbn. repeat split; auto. intros [|i] g x v0 v1 H; discriminate.
  - inversion Hxs as [|? ? Hx0 Hxs']; subst. destruct (IH xs) as (r0 & r1 & H0 & H1 & L0 & L1 & HI); auto.
    destruct (C24_single_partial aes F p types c T g x HD Hn HT HX Hg) as (v0 & v1 & y & E0 & E1 & HS); auto.
    exists (v0 :: r0), (v1 :: r1). cbn [combine mapM fst snd]. rewrite E0, E1, H0, H1. cbn [bind length].
    split; auto. split; auto. split; [congruence|]. split; [congruence|].
    intros [|i] g' x' v0' v1' Hg' Hx' Hv0 Hv1; cbn [nth_error] in *.
    + inv Hg'. inv Hx'. inv Hv0. inv Hv1. eauto.
    + eapply HI; eauto.
Qed.
Print Assumptions C24_batch_partial.
(** Registering value types before or after does not change evaluations. *)
Theorem C24_register : forall aes T c U keys points output,
  dcf_batch_evaluate aes (dcf_register T c) U keys points output = dcf_batch_evaluate aes c U keys points output.
Proof. reflexivity. Qed.
Print Assumptions C24_register.
Example C24_nonvacuous :
  no_xor ex_tuple = true /\ dcf_has xd_p ex_tuple /\ dcf_created ex_F xd_p [ex_tuple] xd_c /\
  Forall (dcf_generated ex_aes xd_c) xd_gs /\ map dp_alpha xd_gs = [19; 31; 0] /\
  (** points below, equal to and above alpha *)
  match dcf_batch_evaluate_vector ex_aes xd_c ex_tuple (map dp_key0 xd_gs) [18; 31; 7],
        dcf_batch_evaluate_vector ex_aes xd_c ex_tuple (map dp_key1 xd_gs) [18; 31; 7] return Prop with
  | Ok r0, Ok r1 => zip2 (vadd ex_tuple) r0 r1
      = [VTup [VNum 1234; VNum 999999]; VTup [VNum 0; VNum 0]; VTup [VNum 0; VNum 0]]
  | _, _ => False
  end.
Proof.
  split; [reflexivity|]. split; [exact xd_has|]. split; [exact xd_created|]. split; [exact xd_generated|].
  split; [reflexivity|]. vm_compute. reflexivity.
Qed.

(** SetToZero leaves XorWrapper values alone, so all levels of the DPF get beta: with
    alpha = 4 and 32-bit XorWrapper values, the shares at x = 5 add up to beta. *)
Definition xx_p : param := {| p_ld := 3; p_vt := Some (PTXor 32); p_sec := DFin 40 |}.
Definition xx_c : dcf := Eval vm_compute in dcf_register (TXor 32) (xd_of (dcf_create ex_F xx_p)).
Definition xx_g : dcf_pair := Eval vm_compute in xd_pair_of xx_c 4 (to_value (TXor 32) (VNum 77)).
Theorem C24_xor_refuted : exists aes F p types c T g x r0 r1,
  dcf_created F p types c /\ dcf_has p T /\ dcf_generated aes c g /\
  x < 2 ^ Z.to_N (p_ld p) /\ dp_alpha g <= x /\
  dcf_evaluate aes c T (dp_key0 g) x = Ok r0 /\ dcf_evaluate aes c T (dp_key1 g) x = Ok r1 /\
  vadd T r0 r1 <> vzero T /\ repr T (dp_beta g) (vadd T r0 r1).
Proof.
  exists ex_aes, ex_F, xx_p, [TXor 32], xx_c, (TXor 32), xx_g, 5.
  exists ltac:(let r := eval vm_compute in (match dcf_evaluate ex_aes xx_c (TXor 32) (dp_key0 xx_g) 5 with Ok v => v | _ => VNum 0 end) in exact r).
  exists ltac:(let r := eval vm_compute in (match dcf_evaluate ex_aes xx_c (TXor 32) (dp_key1 xx_g) 5 with Ok v => v | _ => VNum 0 end) in exact r).
  split.
  { exists (xd_of (dcf_create ex_F xx_p)). split; [vm_compute; reflexivity|]. split; [repeat constructor|vm_compute; reflexivity]. }
  split; [split; [reflexivity|lden]|].
  split; [split; [reflexivity|]; exists (2 ^ 100 + 4), (2 ^ 90 + 4); vm_compute; reflexivity|].
  split; [reflexivity|]. split; [discriminate|]. split; [vm_compute; reflexivity|]. split; [vm_compute; reflexivity|].
  split; [vm_compute; discriminate|]. vm_compute. repeat constructor.
Qed.
Print Assumptions C24_xor_refuted.

(** ** C25: argument validation *)

(** Create.  The DPF levels have log domain sizes 0 to log_domain_size - 1.  Missing from
    C25: log_domain_size 129 and the security parameter (C25_create_refuted). *)
Theorem C25_create_rejects_partial : forall F p,
  (p_ld p < 1)%Z \/ (129 < p_ld p)%Z \/ ~ type_wf (p_type p) ->
  dcf_create F p = Err INVALID_ARGUMENT.
Proof.
  intros F p H. unfold dcf_create. destruct (p_ld p <? 1)%Z eqn:E; [reflexivity|]. cbn [negb check bind].
  rewrite (ooi_not_ok _ (validate_parameters (dcf_dpf_parameters p))); auto using validate_parameters_ooi.
  intros [] HV. apply validate_parameters_iff in HV. destruct H as [H|[H|H]].
  - lia.
  - pose proof (doc_ld _ HV) as HF. rewrite Forall_forall in HF.
    pose proof (dcf_nth p (Z.to_nat (p_ld p) - 1) ltac:(lia)) as HX. apply nth_error_In in HX.
    specialize (HF _ HX). cbn [p_ld] in HF. lia.
  - apply H. pose proof (doc_type _ HV) as HF. rewrite Forall_forall in HF.
    pose proof (dcf_nth p 0 ltac:(lia)) as HX. apply nth_error_In in HX.
    destruct (HF _ HX) as (t & Ht & Hw). cbn [p_vt] in Ht. inv Ht. exact Hw.
Qed.
Print Assumptions C25_create_rejects_partial.
(** What is documented is accepted. *)
Theorem C25_create_accepts : forall F p T, (1 <= p_ld p <= 128)%Z -> dcf_has p T -> type_wf (p_type p) ->
  (leaves (p_type p) < 2 ^ 23)%Z ->
  is_direct T = true \/ (uniform T /\ samples_securely F (DFin 0) T /\
    forall i, (0 <= i < p_ld p)%Z -> samples_securely F (DFin (inject_Z (40 + i))) T) ->
  exists c, dcf_create F p = Ok c.
Proof. exact dcf_create_accepts. Qed.
Print Assumptions C25_create_accepts.
(** Create accepts log_domain_size 129, which the DPF rejects, and GenerateKeys then
    shifts a 128-bit integer by 128.  It also accepts a security parameter that the DPF
    rejects (and ignores it). *)
Definition x129_p : param := {| p_ld := 129; p_vt := Some (PTInteger 32); p_sec := DFin 40 |}.
Definition xsec_p : param := {| p_ld := 3; p_vt := Some (PTInteger 32); p_sec := DNaN |}.
Theorem C25_create_refuted :
  (exists F p c, create_incremental F [p] = Err INVALID_ARGUMENT /\ dcf_create F p = Ok c /\ p_ld p = 129%Z /\
     forall aes alpha beta seed0 seed1, dcf_generate_keys aes c alpha beta seed0 seed1 = UB) /\
  (exists F p c, create_incremental F [p] = Err INVALID_ARGUMENT /\ dcf_create F p = Ok c /\ p_sec p = DNaN).
Proof.
  split.
  - exists ex_F, x129_p. exists ltac:(let r := eval vm_compute in (xd_of (dcf_create ex_F x129_p)) in exact r).
    split; [vm_compute; reflexivity|]. split; [vm_compute; reflexivity|]. split; [reflexivity|]. intros. reflexivity.
  - exists ex_F, xsec_p. exists ltac:(let r := eval vm_compute in (xd_of (dcf_create ex_F xsec_p)) in exact r).
    split; [vm_compute; reflexivity|]. split; [vm_compute; reflexivity|]. reflexivity.
Qed.
Print Assumptions C25_create_refuted.

(** GenerateKeys.  A beta that is no value of the DCF's type is rejected if it is used at
    all, that is, unless alpha is 0 (C25_keygen_refuted). *)
Theorem C25_keygen_rejects_partial : forall aes F p types c alpha beta seed0 seed1,
  dcf_created F p types c -> (p_ld p <= 128)%Z -> dcf_registered p types ->
  Forall (roomy (dcf_dpf_parameters p) (dc_dpf c)) types -> alpha < 2 ^ 128 ->
  2 ^ Z.to_N (p_ld p) <= alpha \/ (alpha <> 0 /\ forall T, dcf_has p T -> ~ exists v, repr T beta v) ->
  dcf_generate_keys aes c alpha beta seed0 seed1 = Err INVALID_ARGUMENT.
Proof.
  intros aes F p types c alpha beta seed0 seed1 HD Hn HR HS Ha H.
  apply (dcf_keygen_rejects aes F p types c HD Hn HR HS); auto.
  replace (N.of_nat (Z.to_nat (p_ld p))) with (Z.to_N (p_ld p)) by lia. exact H.
Qed.
Print Assumptions C25_keygen_rejects_partial.
Theorem C25_keygen_accepts : forall aes F p types c alpha T beta v seed0 seed1,
  dcf_created F p types c -> (p_ld p <= 128)%Z -> dcf_registered p types ->
  Forall (roomy (dcf_dpf_parameters p) (dc_dpf c)) types -> dcf_has p T -> repr T beta v ->
  alpha < 2 ^ Z.to_N (p_ld p) ->
  exists k0 k1, dcf_generate_keys aes c alpha beta seed0 seed1 = Ok (k0, k1).
Proof. exact dcf_keygen_accepts. Qed.
Print Assumptions C25_keygen_accepts.
(** With alpha = 0 and uint8_t values, beta = 300 is accepted. *)
Definition x8_p : param := {| p_ld := 3; p_vt := Some (PTInteger 8); p_sec := DFin 40 |}.
Definition x8_c : dcf := Eval vm_compute in xd_of (dcf_create ex_F x8_p).
Definition x8_g : dcf_pair := Eval vm_compute in xd_pair_of x8_c 0 (PVInteger (VI64 300)).
Lemma x8_created : dcf_created ex_F x8_p [] x8_c.
Proof. exists x8_c. split; [vm_compute; reflexivity|]. split; [constructor|reflexivity]. Qed.
Theorem C25_keygen_refuted : exists aes F p types c g,
  dcf_created F p types c /\ dcf_registered p types /\ dcf_generated aes c g /\
  forall T, dcf_has p T -> ~ exists v, repr T (dp_beta g) v.
Proof.
  exists ex_aes, ex_F, x8_p, [], x8_c, x8_g. split; [exact x8_created|].
  split; [exists (TInt 8); split; [cbn; tauto|reflexivity]|].
  split; [split; [reflexivity|]; exists (2 ^ 100 + 0), (2 ^ 90 + 0); vm_compute; reflexivity|].
  intros T [Hok HDn] (v & HR). change (p_type x8_p) with (PTInteger 8) in HDn.
  assert (HT8 : T = TInt 8).
  { inversion HDn as [w Hw| | |]. f_equal. lia. }
  subst T. change (dp_beta x8_g) with (PVInteger (VI64 300)) in HR. inversion HR as [w i x He Hx| | |]; subst.
  cbn [encodes] in He. subst x. revert Hx. vm_compute. discriminate.
Qed.
Print Assumptions C25_keygen_refuted.
(** BatchEvaluate: spans of different sizes are rejected. *)
Theorem C25_batch_rejects_sizes : forall aes c T keys points output,
  length keys <> length points \/ length output <> length keys ->
  dcf_batch_evaluate aes c T keys points output = Err INVALID_ARGUMENT.
Proof.
  intros aes c T keys points output H. unfold dcf_batch_evaluate.
  destruct (Nat.eqb_spec (length keys) (length points)); cbn [check bind]; auto.
  destruct (Nat.eqb_spec (length output) (length keys)); cbn [check bind]; auto. lia.
Qed.
Print Assumptions C25_batch_rejects_sizes.
(** Points out of the domain are not: 1000 is accepted in a domain of size 32. *)
Theorem C46_dcf_refuted : exists aes F p types c T g x r,
  dcf_created F p types c /\ dcf_has p T /\ dcf_generated aes c g /\ 2 ^ Z.to_N (p_ld p) <= x /\
  dcf_batch_evaluate aes c T [dp_key0 g] [x] [vzero T] = Ok r.
Proof.
  exists ex_aes, ex_F, xd_p, [ex_tuple], xd_c, ex_tuple, (nth 0 xd_gs x8_g), 1000.
  eexists. split; [exact xd_created|]. split; [exact xd_has|]. split.
  - pose proof xd_generated as H. inversion H; subst. assumption.
  - split; [discriminate|]. vm_compute. reflexivity.
Qed.
Print Assumptions C46_dcf_refuted.
Example C25_nonvacuous :
  dcf_create ex_F {| p_ld := 0; p_vt := Some (PTInteger 32); p_sec := DFin 0 |} = Err INVALID_ARGUMENT /\
  dcf_create ex_F {| p_ld := 130; p_vt := Some (PTInteger 32); p_sec := DFin 0 |} = Err INVALID_ARGUMENT /\
  dcf_create ex_F {| p_ld := 4; p_vt := Some (PTInteger 24); p_sec := DFin 0 |} = Err INVALID_ARGUMENT /\
  dcf_create ex_F {| p_ld := 4; p_vt := None; p_sec := DFin 0 |} = Err INVALID_ARGUMENT /\
  dcf_registered xd_p [ex_tuple] /\ roomy (dcf_dpf_parameters xd_p) (dc_dpf xd_c) ex_tuple /\
  dcf_generate_keys ex_aes xd_c 32 (xd_beta 1 1) 5 6 = Err INVALID_ARGUMENT /\
  dcf_generate_keys ex_aes xd_c 31 (xd_beta 1 1000003) 5 6 = Err INVALID_ARGUMENT /\
  dcf_generate_keys ex_aes xd_c 31 PVUnset 5 6 = Err INVALID_ARGUMENT /\
  dcf_batch_evaluate ex_aes xd_c ex_tuple (map dp_key0 xd_gs) [1; 2] [vzero ex_tuple; vzero ex_tuple] = Err INVALID_ARGUMENT.
Proof.
  repeat (split; [vm_compute; reflexivity|]).
  split; [exists ex_tuple; split; [cbn; tauto|reflexivity]|].
  split; [eapply shape_roomy; [exact (proj1 (dcf_created_facts _ _ _ _ xd_created))|reflexivity]|].
  repeat (split; [vm_compute; reflexivity|]). vm_compute. reflexivity.
Qed.

(** ** C26: batches are independent single evaluations *)

(** For all keys, valid or not, and whatever [output] contained; [roomy] excludes
    the tuples for which Create computes too small a block count (C17). *)
Theorem C26_batch_is_single : forall aes F p types c T keys points output,
  dcf_created F p types c -> (p_ld p <= 128)%Z -> dcf_has p T -> roomy (dcf_dpf_parameters p) (dc_dpf c) T ->
  length points = length keys -> length output = length keys ->
  Forall (fun x => x < 2 ^ 128) points -> N.of_nat (length keys) * Z.to_N (p_ld p) < 2 ^ 31 ->
  dcf_batch_evaluate aes c T keys points output
  = mapM (fun kx : dkey * N => dcf_evaluate aes c T (fst kx) (snd kx)) (combine keys points).
Proof.
  intros aes F p types c T keys points output HD Hn HT HB HL Ho HP HN.
  apply (batch_is_single aes F p types c HD T HT Hn); auto.
  - replace (N.of_nat (Z.to_nat (p_ld p))) with (Z.to_N (p_ld p)) by lia. exact HN.
  - intros h Hh. apply (roomy_enough (dcf_dpf_parameters p) (dc_dpf c)); auto.
    apply dcf_level_has; auto.
Qed.
Print Assumptions C26_batch_is_single.
(** In terms of positions. *)
Theorem C26_batch_positions : forall aes F p types c T keys points output r,
  dcf_created F p types c -> (p_ld p <= 128)%Z -> dcf_has p T -> roomy (dcf_dpf_parameters p) (dc_dpf c) T ->
  Forall (fun x => x < 2 ^ 128) points -> N.of_nat (length keys) * Z.to_N (p_ld p) < 2 ^ 31 ->
  dcf_batch_evaluate aes c T keys points output = Ok r ->
  length r = length keys /\
  forall i k x v, nth_error keys i = Some k -> nth_error points i = Some x -> nth_error r i = Some v ->
    dcf_evaluate aes c T k x = Ok v.
Proof.
  intros aes F p types c T keys points output r HD Hn HT HB HP HN H.
  assert (HL : length points = length keys /\ length output = length keys).
  { unfold dcf_batch_evaluate in H. bind_inv H. apply check_ok in Hb. bind_inv H. apply check_ok in Hb0.
    apply Nat.eqb_eq in Hb, Hb0.
    split; lia. }
  destruct HL as [HL Ho].
  rewrite (C26_batch_is_single aes F p types c T) in H by auto. apply mapM_ok_iff in H.
  split.
  - apply Forall2_length in H. rewrite combine_length in H. lia.
  - clear - H HL. revert points r H HL. induction keys as [|k keys IH]; intros [|x points] r H HL; try discriminate.
    + intros [|i] ? ? ? Hk; discriminate.
    + cbn [combine] in H. inv H. cbn [fst snd] in *. intros [|i] k' x' v Hk Hx Hv; cbn [nth_error] in *.
      * congruence.
      * eapply IH; eauto.
Qed.
Print Assumptions C26_batch_positions.
Theorem C26_output_ignored : forall aes c T keys points output output',
  length output = length output' ->
  dcf_batch_evaluate aes c T keys points output = dcf_batch_evaluate aes c T keys points output'.
Proof.
  intros aes c T keys points output output' H. unfold dcf_batch_evaluate. rewrite H.
  replace (map (fun _ => vzero T) output) with (map (fun _ : cval => vzero T) output'); auto.
  clear - H. revert output' H. induction output as [|a l IH]; intros [|b l'] H; try discriminate; cbn [map]; auto.
  f_equal. apply IH. cbn in H. congruence.
Qed.
Print Assumptions C26_output_ignored.
Example C26_nonvacuous :
  roomy (dcf_dpf_parameters xd_p) (dc_dpf xd_c) ex_tuple /\
  match dcf_batch_evaluate ex_aes xd_c ex_tuple (map dp_key0 xd_gs) [18; 31; 7]
          [VTup [VNum 9; VNum 9]; VTup [VNum 8; VNum 8]; VTup [VNum 7; VNum 7]],
        dcf_evaluate ex_aes xd_c ex_tuple (dp_key0 (nth 1 xd_gs x8_g)) 31 return Prop with
  | Ok r, Ok v => nth_error r 1 = Some v
  | _, _ => False
  end.
Proof.
  split; [eapply shape_roomy; [exact (proj1 (dcf_created_facts _ _ _ _ xd_created))|reflexivity]|].
  vm_compute. reflexivity.
Qed.
