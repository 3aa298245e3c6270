(** C83: failures of calls to OpenSSL. *)
From Coq Require Import List NArith ZArith QArith Bool Lia ZifyBool ZifyNat ZifyN.
From Verif Require Import Base ListUtil ValueTypesModel ValueTypesSpec TypeProofs DpfModel DpfTree DpfWf DpfSpec DpfCtx DpfHist DpfReach DpfFacts DpfExamples
  DcfModel DcfSpec PropertiesDcf PropertiesMic FaultModel FaultSpec FaultProofs FaultRetry.
Import ListNotations.
Open Scope N_scope.

(** * C83 *)

(** Full statement: if a call to OpenSSL fails during a call of the API, then this call returns an error and changes nothing that would make a
    repetition give another result.  Proved: the error, for all functions, as long as RAND_bytes does not fail; and the second part for EvaluateAt, and for
    EvaluateUntil and EvaluateNext up to the computation of the values.  False: both parts in general (the theorems [C83_..._refuted]). *)

(** Create and CreateIncremental. *)
Theorem C83_create : forall status F ps, reported status (create_incremental_f status F ps) (create_incremental F ps).
Proof. intros status F ps. exact (rep_create (fun _ _ => 0) status (fun _ => 0) F ps). Qed.
Print Assumptions C83_create.

(** GenerateKeys and GenerateKeysIncremental; the two first calls to OpenSSL are those of RAND_bytes. *)
Theorem C83_keys_partial : forall aes status random d alpha beta n, status n = 1%Z -> status (S n) = 1%Z ->
  reported_at status n (generate_keys_f aes status random d alpha beta n) (generate_keys aes d alpha beta (random n) (random (S n))).
Proof. exact rep_keys. Qed.
Print Assumptions C83_keys_partial.

(** EvaluateAt without a context, and EvaluateAndApply for an arbitrary callback. *)
Theorem C83_evaluate_at : forall aes status d T key h points,
  reported status (evaluate_at_f aes status d T key h points) (evaluate_at aes d T key h points).
Proof. intros aes status d T key h points. exact (rep_evaluate_at aes status (fun _ => 0) d T key h points). Qed.
Print Assumptions C83_evaluate_at.
Theorem C83_evaluate_and_apply : forall aes status d (S : Type) T keys points (op : S -> list cval -> S * bool) rightshift s,
  reported status (evaluate_and_apply_f aes status d T keys points op rightshift s) (evaluate_and_apply aes d T keys points op rightshift s).
Proof. intros aes status d S T keys points op rs s. exact (rep_apply aes status (fun _ => 0) d S T keys points op rs s). Qed.
Print Assumptions C83_evaluate_and_apply.

(** EvaluateUntil, EvaluateNext and EvaluateAt with an arbitrary context. *)
Theorem C83_evaluate_until : forall aes status d T h prefixes c,
  reported_ctx status (evaluate_until_f aes status d T h prefixes c) (evaluate_until aes d T h prefixes c).
Proof. intros aes status d T h prefixes c. exact (rep_c_reported status _ _ _ _ (rep_until aes status (fun _ => 0) d T h prefixes c)). Qed.
Print Assumptions C83_evaluate_until.
Theorem C83_evaluate_next : forall aes status d T prefixes c,
  reported_ctx status (evaluate_next_f aes status d T prefixes c) (evaluate_next aes d T prefixes c).
Proof.
  intros aes status d T prefixes c. unfold evaluate_next_f, evaluate_next. destruct (Nat.eqb _ 0); apply C83_evaluate_until.
Qed.
Print Assumptions C83_evaluate_next.
Theorem C83_evaluate_at_context : forall aes status d T h points c,
  reported_ctx status (evaluate_at_ctx_f aes status d T h points c) (evaluate_at_ctx aes d T h points c).
Proof. intros aes status d T h points c. exact (rep_c_reported status _ _ _ _ (rep_at_ctx aes status (fun _ => 0) d T h points c)). Qed.
Print Assumptions C83_evaluate_at_context.

(** The comparison function. *)
Theorem C83_dcf_keys_partial : forall aes status random c alpha beta n, status n = 1%Z -> status (S n) = 1%Z ->
  reported_at status n (dcf_generate_keys_f aes status random c alpha beta n) (dcf_generate_keys aes c alpha beta (random n) (random (S n))).
Proof. exact rep_dcf_keys. Qed.
Print Assumptions C83_dcf_keys_partial.
Theorem C83_dcf_evaluate : forall aes status c T keys points output,
  reported status (dcf_batch_evaluate_f aes status c T keys points output) (dcf_batch_evaluate aes c T keys points output).
Proof. intros aes status c T keys points output. exact (rep_dcf_eval aes status (fun _ => 0) c T keys points output). Qed.
Print Assumptions C83_dcf_evaluate.

(** The interval gate.  If RAND_bytes returns only 0 and 1, then its failures in BasicRng are reported as well; and in the absence of failures, the masks
    are numbers that different calls have drawn, and not those of the seeds. *)
Theorem C83_mic_keys_partial : forall aes status random, (forall i, status i = 0%Z \/ status i = 1%Z) ->
  forall m r_in r_out n, status n = 1%Z -> status (S n) = 1%Z -> exists k, (n + 2 <= k)%nat /\
  reported_at status n (mic_gen_f aes status random m r_in r_out n)
    (mic_gen aes m r_in r_out (random n) (random (S n)) (fun i => random (k + i)%nat)).
Proof. exact rep_mic_keys. Qed.
Print Assumptions C83_mic_keys_partial.
Theorem C83_mic_evaluate : forall aes status m keys points,
  reported status (mic_batch_eval_f aes status m keys points) (mic_batch_eval aes m keys points).
Proof. intros aes status m keys points. exact (rep_mic_eval aes status (fun _ => 0) m keys points). Qed.
Print Assumptions C83_mic_evaluate.

(** The call after a failure: EvaluateAt gives with the context that a failed call leaves the same as with the context before. *)
Theorem C83_repeat_at : forall aes status F ps types d key c prev stored h T points n,
  created F ps types d -> (forall k, (k < length ps)%nat -> exists T, level_has ps k T) ->
  after aes d ps key c prev stored -> level_has ps h T ->
  let '((x, c'), n') := evaluate_at_ctx_f aes status d T (Z.of_nat h) points c n in
  succeed status n n' /\ (x, c') = evaluate_at_ctx aes d T (Z.of_nat h) points c \/
  last_fails status n n' /\ x = Err INTERNAL /\
  evaluate_at_ctx aes d T (Z.of_nat h) points c' = evaluate_at_ctx aes d T (Z.of_nat h) points c.
Proof.
  intros aes status F ps types d key c prev stored h T points n HC HTy HA HT.
  destruct (rep_at_ctx aes status (fun _ => 0) d T (Z.of_nat h) points c n) as [_ HR].
  destruct (evaluate_at_ctx_f aes status d T (Z.of_nat h) points c n) as [[x c'] n']. cbn [fst snd] in HR.
  destruct HR as [HR|(H1 & H2 & H3)]; [left; exact HR|]. right. split; [exact H1|]. split; [exact H2|].
  destruct H3 as [->|(HK & EL & st & HP)]; [reflexivity|].
  destruct (after_inv aes F ps types d HC HTy _ _ _ _ HA) as (I & _). destruct (created_wf _ _ _ _ HC) as (W & HL & _).
  apply (at_again aes d W key c T h points st c' I); auto.
  - fold (nlevels d) in HL. rewrite (created_len _ _ _ _ HC). exact (level_has_lt _ _ _ HT).
  - exact (level_has_type _ _ _ _ _ _ HC HT).
Qed.
Print Assumptions C83_repeat_at.

(** EvaluateUntil does so, or the context is that of a successful call: then no call for this hierarchy level succeeds. *)
Theorem C83_repeat_partial : forall aes status F ps types d key c prev stored h T prefixes n,
  created F ps types d -> (forall k, (k < length ps)%nat -> exists T, level_has ps k T) ->
  after aes d ps key c prev stored -> cty_ok T = true -> Forall (fun p => p < 2 ^ 128) prefixes ->
  let '((x, c'), n') := evaluate_until_f aes status d T h prefixes c n in
  succeed status n n' /\ (x, c') = evaluate_until aes d T h prefixes c \/
  last_fails status n n' /\ x = Err INTERNAL /\
  (evaluate_until aes d T h prefixes c' = evaluate_until aes d T h prefixes c \/
   c' = snd (evaluate_until aes d T h prefixes c) /\
   forall U prefixes' r, cty_ok U = true -> fst (evaluate_until aes d U h prefixes' c') <> Ok r).
Proof.
  intros aes status F ps types d key c prev stored h T prefixes n HC HTy HA Hok HF.
  destruct (rep_until aes status (fun _ => 0) d T h prefixes c n) as [_ HR].
  destruct (evaluate_until_f aes status d T h prefixes c n) as [[x c'] n']. cbn [fst snd] in HR.
  destruct HR as [HR|(H1 & H2 & H3)]; [left; exact HR|]. right. split; [exact H1|]. split; [exact H2|].
  destruct (after_inv aes F ps types d HC HTy _ _ _ _ HA) as (I & _). destruct (created_wf _ _ _ _ HC) as (W & _).
  destruct H3 as [->|(HK & [(st & l & HS)|(Hc & Hp)])]; [left; reflexivity| |].
  - left. exact (until_again aes d W key c T h prefixes st c' l I Hok HF HK HS).
  - right. split; [exact Hc|]. intros U prefixes' r HU.
    destruct (evaluate_until_checks d T h prefixes c) as [g| | |] eqn:EC; try discriminate HK.
    destruct (until_checks_inv d W _ _ _ _ _ Hok EC) as (Hh & _).
    apply (level_used aes d W); [lia| |exact HU]. lia.
Qed.
Print Assumptions C83_repeat_partial.

(** The n-th call, and no other, fails with return value [z]. *)
Definition fails_at (i : nat) (z : Z) (n : nat) : Z := if Nat.eqb n i then z else 1%Z.

(** ** Where the statement is false *)

(** If RAND_bytes fails, then GenerateKeys uses numbers that were not initialised. *)
Theorem C83_keys_refuted : exists aes random F ps types d alpha beta,
  created F ps types d /\ is_ok (generate_keys aes d alpha beta (random 0%nat) (random 1%nat)) = true /\
  fst (generate_keys_f aes (fails_at 0 0) random d alpha beta 0%nat) = UB.
Proof.
  exists ex_aes, (fun _ => 12345), ex_F, ex_ps, ex_types, ex_d, ex_alpha, ex_beta. split; [exact ex_created|].
  split; vm_compute; reflexivity.
Qed.
Print Assumptions C83_keys_refuted.
(** In general: in all calls that get as far as the seeds. *)
Theorem C83_keys_rand : forall aes status random d alpha beta n, status n <> 1%Z ->
  is_ok (generate_keys aes d alpha beta (random n) (random (S n))) = true ->
  fst (generate_keys_f aes status random d alpha beta n) = UB.
Proof.
  intros aes status random d alpha beta n HS HG. unfold generate_keys in HG. unfold generate_keys_f, bind_f, lift.
  destruct (check (Nat.eqb (length beta) (nlevels d)) INVALID_ARGUMENT); try discriminate HG.
  destruct (validate_betas (d_params d) beta); try discriminate HG.
  destruct (check (negb (Nat.ltb (ld_last d) 128 && (2 ^ N.of_nat (ld_last d) <=? alpha))) INVALID_ARGUMENT); try discriminate HG.
  unfold rand_uint128_f. destruct (Z.eqb_spec (status n) 1); [contradiction|]. reflexivity.
Qed.
Print Assumptions C83_keys_rand.

(** A failing GenerateSeed returns 16 zero bytes and no error. *)
Theorem C83_seed_refuted : forall status random n, status n <> 1%Z ->
  generate_seed_f status random n = (Ok (repeat 0 16), S n).
Proof. intros status random n H. unfold generate_seed_f. destruct (Z.eqb_spec (status n) 1); [contradiction|reflexivity]. Qed.
Print Assumptions C83_seed_refuted.

(** BasicRng takes a return value of -1 for success. *)
Theorem C83_mic_keys_refuted : exists aes random m r_in r_out k,
  is_ok (mic_gen aes m r_in r_out (random 0%nat) (random 1%nat) random) = true /\
  fst (mic_gen_f aes (fails_at k 0) random m r_in r_out 0%nat) = Err INTERNAL /\
  fst (mic_gen_f aes (fails_at k (-1)) random m r_in r_out 0%nat) = UB.
Proof.
  exists ex_aes, xm_rnd, xm_m, 13, [1; 15; 7], (S (snd (dcf_generate_keys_f ex_aes (fun _ => 1%Z) xm_rnd (dcf_register (TInt 128) (m_dcf xm_m)) 12 (to_value (TInt 128) (VNum 1)) 0%nat))).
  split; [vm_compute; reflexivity|]. split; vm_compute; reflexivity.
Qed.
Print Assumptions C83_mic_keys_refuted.

(** After a failure in EvaluateUntil the same call gives another error, although it would have succeeded without the failure. *)
Theorem C83_repeat_refuted : exists aes F ps types d key c prev stored h T prefixes k c',
  created F ps types d /\ after aes d ps key c prev stored /\ level_has ps (Z.to_nat h) T /\
  is_ok (fst (evaluate_until aes d T h prefixes c)) = true /\
  fst (evaluate_until_f aes (fails_at k 0) d T h prefixes c 0%nat) = (Err INTERNAL, c') /\
  fst (evaluate_until aes d T h prefixes c') = Err INVALID_ARGUMENT.
Proof.
  exists ex_aes, ex_F, ex_ps, ex_types, ex_d, ex4_key, ex5_c1, (Some 0%nat), (Some (0%nat, [2; 3; 2])), 1%Z, ex_tuple, [3; 2].
  exists (Nat.pred (snd (evaluate_until_f ex_aes (fun _ => 1%Z) ex_d ex_tuple 1 [3; 2] ex5_c1 0%nat))).
  exists (snd (evaluate_until ex_aes ex_d ex_tuple 1 [3; 2] ex5_c1)).
  split; [exact ex_created|]. split; [exact ex5_after1|]. split; [exact ex_level_1|].
  split; [vm_compute; reflexivity|]. split; vm_compute; reflexivity.
Qed.
Print Assumptions C83_repeat_refuted.

(** ** Cases that meet the hypotheses *)

(** Key generation: without failures it gives the keys of the example, and a failure of any of its calls of EVP_Cipher is an error. *)
Definition xft_random (n : nat) : N := if Nat.eqb n 0 then 0x0123456789abcdef0123456789abcdef else 0xfedcba98765432100123456789abcdef.
Example C83_keys_nonvacuous :
  let calls := snd (generate_keys_f ex_aes (fun _ => 1%Z) xft_random ex_d ex_alpha ex_beta 0%nat) in
  fst (generate_keys_f ex_aes (fun _ => 1%Z) xft_random ex_d ex_alpha ex_beta 0%nat) = Ok (ex_k0, ex_k1) /\ (10 < calls)%nat /\
  forallb (fun k => match generate_keys_f ex_aes (fails_at k 0) xft_random ex_d ex_alpha ex_beta 0%nat with (Err INTERNAL, n) => Nat.eqb n (S k) | _ => false end)
    (seq 2 (calls - 2)) = true.
Proof. cbv zeta. split; [vm_compute; reflexivity|]. split; [apply Nat.ltb_lt; vm_compute; reflexivity|vm_compute; reflexivity]. Qed.

(** Creation makes six calls. *)
Example C83_create_nonvacuous :
  is_ok (fst (create_incremental_f (fun _ => 1%Z) ex_F ex_ps 0%nat)) = true /\
  map (fun k => create_incremental_f (fails_at k 0) ex_F ex_ps 0%nat) (seq 0 6) = map (fun k => (Err INTERNAL, S k)) (seq 0 6).
Proof. split; vm_compute; reflexivity. Qed.

(** Evaluation: the context of C05. *)
Example C83_evaluate_nonvacuous :
  let calls := snd (evaluate_until_f ex_aes (fun _ => 1%Z) ex_d ex_tuple 1 [3; 2] ex5_c1 0%nat) in
  fst (evaluate_until_f ex_aes (fun _ => 1%Z) ex_d ex_tuple 1 [3; 2] ex5_c1 0%nat) = (Ok ex5_r2, ex5_c2) /\ (3 < calls)%nat /\
  forallb (fun k => match evaluate_until_f ex_aes (fails_at k 0) ex_d ex_tuple 1 [3; 2] ex5_c1 0%nat with ((Err INTERNAL, _), n) => Nat.eqb n (S k) | _ => false end)
    (seq 0 calls) = true.
Proof. cbv zeta. split; [vm_compute; reflexivity|]. split; [apply Nat.ltb_lt; vm_compute; reflexivity|vm_compute; reflexivity]. Qed.

(** A failure in EvaluateAt after the context was changed, and one in EvaluateUntil that a repetition makes good. *)
Example C83_repeat_nonvacuous :
  after ex_aes ex_d ex_ps ex4_key ex5_c2 (Some 1%nat) (Some (0%nat, [3; 2])) /\ level_has ex_ps 2 (TInt 64) /\
  (let calls := snd (evaluate_at_ctx_f ex_aes (fun _ => 1%Z) ex_d (TInt 64) 2 [300; 511] ex5_c2 0%nat) in
   let c' := snd (fst (evaluate_at_ctx_f ex_aes (fails_at (calls - 1) 0) ex_d (TInt 64) 2 [300; 511] ex5_c2 0%nat)) in
   c_plevel c' = 2%Z /\ c_plevel ex5_c2 = 0%Z /\ is_ok (fst (evaluate_at_ctx ex_aes ex_d (TInt 64) 2 [300; 511] c')) = true) /\
  (let c' := snd (fst (evaluate_until_f ex_aes (fails_at 2 0) ex_d (TInt 64) 2 [47; 63] ex5_c2 0%nat)) in
   fst (fst (evaluate_until_f ex_aes (fails_at 2 0) ex_d (TInt 64) 2 [47; 63] ex5_c2 0%nat)) = Err INTERNAL /\
   is_ok (fst (evaluate_until ex_aes ex_d (TInt 64) 2 [47; 63] c')) = true).
Proof.
  split; [exact ex5_after2|]. split; [exact ex_level_2|]. split; [|split; vm_compute; reflexivity].
  split; [vm_compute; reflexivity|]. split; vm_compute; reflexivity.
Qed.

(** The interval gate and the comparison function. *)
Example C83_fss_nonvacuous :
  (exists ks, fst (mic_gen_f ex_aes (fun _ => 1%Z) xm_rnd xm_m 13 [1; 15; 7] 0%nat) = Ok ks) /\
  (exists ks, fst (dcf_generate_keys_f ex_aes (fun _ => 1%Z) xm_rnd xd_c 19 (xd_beta 1 2) 0%nat) = Ok ks) /\
  fst (dcf_generate_keys_f ex_aes (fails_at 5 0) xm_rnd xd_c 19 (xd_beta 1 2) 0%nat) = Err INTERNAL /\
  (exists v, fst (mic_batch_eval_f ex_aes (fun _ => 1%Z) xm_m (map mg_key0 xm_gs) [3; 4] 0%nat) = Ok v) /\
  fst (mic_batch_eval_f ex_aes (fails_at 7 0) xm_m (map mg_key0 xm_gs) [3; 4] 0%nat) = Err INTERNAL.
Proof.
  split; [eexists; vm_compute; reflexivity|]. split; [eexists; vm_compute; reflexivity|]. split; [vm_compute; reflexivity|].
  split; [eexists; vm_compute; reflexivity|]. vm_compute; reflexivity.
Qed.
