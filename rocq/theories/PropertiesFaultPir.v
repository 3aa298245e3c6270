(** C85: failures of calls to OpenSSL in private information retrieval. *)
From Coq Require Import List NArith ZArith Bool Lia ZifyBool ZifyNat ZifyN.
From Verif Require Import Base ListUtil ValueTypesModel ValueTypesSpec DpfModel DpfWf DpfSpec DpfExamples FaultModel FaultSpec FaultProofs PropertiesFault
  CostSpec CostProofs PropertiesCost PropertiesPir PirDbModel PirSpec PirModel PirProtoSpec PirProtoProofs PirDenseProofs PropertiesPirProto HashModel SparseModel SparseSpec SparseProofs
  SparseDbProofs PropertiesSparse PirPrivacy PropertiesPirPrivacy FaultPirModel FaultPirProofs.
Import ListNotations.
Open Scope N_scope.

(** ** Specification *)

(** The outcome [o] of creating a request for [m] queries, after [n] calls, where the keys for one query take [K] calls, of which the first two draw the
    seeds, and the last call draws the seed of the one-time pad. *)
Definition request_outcome {A} (status : nat -> Z) (random : nat -> N) (K m n : nat) (model : (nat -> N * N) -> bytes -> res A) (o : res A * nat) : Prop :=
  let seeds := fun i => (random (n + i * K)%nat, random (S (n + i * K))) in
  let last := (n + m * K)%nat in
  (succeed status n last -> status last = 1%Z -> o = (model seeds (le_encode 16 (random last)), S last)) /\
  (succeed status n last -> status last <> 1%Z -> o = (model seeds (repeat 0 16), S last)) /\
  (forall j, (n <= j < last)%nat -> succeed status n j -> status j <> 1%Z ->
     o = (if Nat.ltb ((j - n) mod K) 2 then UB else Err INTERNAL, S j)).

(** ** Creation of requests *)
Lemma calls_two : forall d h, (2 <= key_calls d h)%nat.
Proof. intros d h. unfold key_calls. lia. Qed.
Lemma first_fails : forall (status : nat -> Z) a b j, (a <= j < b)%nat -> succeed status a j -> status j <> 1%Z -> succeed status a b -> False.
Proof. intros status a b j Hj _ HF HS. apply HF, HS, Hj. Qed.
Lemma first_unique : forall (status : nat -> Z) a i j, (a <= i)%nat -> (a <= j)%nat -> succeed status a i -> status i <> 1%Z -> succeed status a j -> status j <> 1%Z -> i = j.
Proof.
  intros status a i j Hi Hj Si Fi Sj Fj. destruct (Nat.lt_trichotomy i j) as [H|[H|H]]; [|exact H|].
  - exfalso. apply Fi, Sj. lia.
  - exfalso. apply Fj, Si. lia.
Qed.
Lemma succeed_sub : forall (status : nat -> Z) a b a' b', succeed status a b -> (a <= a')%nat -> (b' <= b)%nat -> succeed status a' b'.
Proof. intros status a b a' b' H Ha Hb i Hi. apply H. lia. Qed.

Section Requests.
Variable F : fops.
Variable clog : Z -> Z.
Variable n : Z.
Hypothesis Hn : (0 < n < 2147483648)%Z.
Hypothesis HL : clog_ok clog n.
Variable d : dpf.
Hypothesis Hd : create_incremental F (dense_params clog n) = Ok d.
Variable aes : N -> N -> N.
Variable status : nat -> Z.
Variable random : nat -> N.
Let K := key_calls (register_value_type block_type d) 1.

Lemma dense_shape : tree_level_of d 0 = Z.to_nat (clog n) /\ blocks_of d 0 = 1%nat.
Proof.
  destruct (created_wf _ _ _ _ (dense_created F clog n d Hd)) as (W & _). clear K. set (d' := register_value_type block_type d) in *.
  assert (EP : d_params d' = map with_default_sec (dense_params clog n)) by (change (d_params d') with (d_params d); exact (create_params _ _ _ Hd)).
  assert (HP : nlevels d' = 1%nat) by (unfold nlevels; rewrite EP; reflexivity).
  eassert (E0 : nth_error (d_params d') 0 = Some (with_default_sec {| p_ld := clog n; p_vt := Some (PTXor 128); p_sec := DFin _ |})) by (rewrite EP; reflexivity).
  assert (H1 : (h2t d' 0 <= ld d' 0)%nat) by (apply (wf_h2t_ld d' W 0); rewrite HP; apply Nat.lt_0_1).
  pose proof (wf_ld_z d' W 0 _ E0) as [_ H2]. rewrite default_sec_ld in H2. cbn [p_ld] in H2.
  destruct (wf_bits d' W 0 _ E0) as (F' & sec & bits & HB & EB).
  assert (HT : level_type d' 0 block_type).
  { split; [reflexivity|]. eexists. split; [exact E0|]. unfold with_default_sec. destruct (_ : bool); cbn [p_vt p_type]; apply (denotes_xor 128). }
  assert (H3 : (2 ^ block_bits d' 0 <= elements_per_block block_type)%nat) by exact (wf_epb d' W 0 _ HT).
  assert (H4 : elements_per_block block_type = 1%nat) by reflexivity. rewrite H4 in H3. unfold block_bits in H3.
  assert (H5 : bits = 128%Z).
  { unfold with_default_sec in HB. destruct (_ : bool) in HB; cbn in HB; injection HB as <-; reflexivity. }
  rewrite H5 in EB. change (Z.to_nat ((128 + 127) / 128)) with 1%nat in EB.
  unfold h2t, blocks in *. change (d_h2t d') with (d_h2t d) in *. change (d_blocks d') with (d_blocks d) in *. unfold tree_level_of, blocks_of.
  split; [|exact EB]. clear - H1 H2 H3.
  destruct (ld d' 0 - nth 0 (d_h2t d) 0)%nat as [|m] eqn:EM; [lia|]. cbn [Nat.pow] in H3. pose proof (Nat.pow_nonzero 2 m). lia.
Qed.
Lemma K_value : K = (3 + 2 * Z.to_nat (clog n))%nat.
Proof.
  destruct dense_shape as [H1 H2]. unfold K, key_calls. unfold tree_level_of, blocks_of in *. cbn [Nat.sub seq map total fold_right].
  change (d_h2t (register_value_type block_type d)) with (d_h2t d). change (d_blocks (register_value_type block_type d)) with (d_blocks d).
  rewrite H1, H2. change (batches (2 * 1)) with 1%nat. clear. lia.
Qed.

Lemma keys_step : forall q a, (0 <= q < n)%Z ->
  (succeed status a (a + K) -> dense_keys_f aes status random d q a = (dense_keys aes d q (random a, random (S a)), (a + K)%nat)) /\
  (forall j, (a <= j < a + K)%nat -> succeed status a j -> status j <> 1%Z ->
     dense_keys_f aes status random d q a = (if Nat.ltb (j - a) 2 then UB else Err INTERNAL, S j)).
Proof.
  intros q a Hq.
  destruct (dense_keys_ok aes F clog n ltac:(lia) ltac:(lia) HL d Hd q (random a, random (S a)) Hq) as (k0 & k1 & EK & _).
  unfold dense_keys_f, dense_keys in *.
  set (d' := register_value_type block_type d) in *. set (al := Z.to_N _) in *. set (be := [to_value _ _]) in *. cbn [fst snd] in EK.
  assert (HC : forall s a0 x n', generate_keys_f aes s random d' al be a0 = (Ok x, n') -> n' = (a0 + K)%nat).
  { intros s a0 x n' E. exact (C84_keys F _ _ _ (dense_created F clog n d Hd) aes s random al be a0 x n' E). }
  assert (HR : forall s, s a = 1%Z -> s (S a) = 1%Z ->
     reported_at s a (generate_keys_f aes s random d' al be a) (Ok (k0, k1))).
  { intros s H0 H1. rewrite <- EK. apply rep_keys; assumption. }
  assert (HK : (2 <= K)%nat) by apply calls_two.
  split.
  - intros HS. cbn [fst snd]. rewrite EK.
    assert (H1 : generate_keys_f aes (fun _ => 1%Z) random d' al be a = (Ok (k0, k1), (a + K)%nat)).
    { destruct (HR (fun _ => 1%Z) eq_refl eq_refl) as (_ & [[_ E]|[(i & _ & _ & _ & E) _]]); [|congruence].
      destruct (generate_keys_f aes (fun _ => 1%Z) random d' al be a) as [x n'] eqn:EX. cbn [fst] in E. subst x. rewrite (HC _ _ _ _ EX). reflexivity. }
    destruct (local_keys aes (fun _ => 1%Z) status random d' al be a) as [_ HX]. rewrite H1 in HX. apply HX. cbn [snd]. exact HS.
  - intros j Hj HS HF.
    assert (HU : forall s, generate_keys_f aes s random d' al be a =
      (seed0 <~ rand_uint128_f s random ;; seed1 <~ rand_uint128_f s random ;;
       ('(g, cws) <~ generate_loop_f aes s d' (d_levels d' - 1) 1 al be {| g_seed0 := seed0; g_seed1 := seed1; g_bit0 := false; g_bit1 := true |} ;;
        b <~ lift (at_or_ub be (nlevels d' - 1)) ;;
        last <~ compute_value_correction_f aes s d' (nlevels d' - 1) (g_seed0 g) (g_seed1 g) al b (g_bit1 g) ;;
        lift (Ok ({| k_seed := Some seed0; k_cws := cws; k_party := 0; k_last := last |},
                  {| k_seed := Some seed1; k_cws := cws; k_party := 1; k_last := last |})))) a).
    { intros s. unfold generate_keys in EK. bind_inv EK. bind_inv EK. bind_inv EK.
      unfold generate_keys_f. rewrite Hb, Hb0, Hb1. reflexivity. }
    destruct (Nat.ltb_spec (j - a) 2) as [H2|H2].
    + rewrite HU. assert (j = a \/ j = S a) as [-> | ->] by lia.
      * unfold bind_f at 1. unfold rand_uint128_f at 1. destruct (Z.eqb_spec (status a) 1); [contradiction|]. reflexivity.
      * unfold bind_f at 1. unfold rand_uint128_f at 1. rewrite (HS a) by lia. rewrite Z.eqb_refl.
        unfold bind_f at 1. unfold rand_uint128_f at 1. destruct (Z.eqb_spec (status (S a)) 1); [contradiction|]. reflexivity.
    + destruct (HR status) as (H0 & H1); [apply HS; lia|apply HS; lia|].
      destruct (generate_keys_f aes status random d' al be a) as [x n'] eqn:EX. cbn [fst snd] in H0, H1. destruct H1 as [[H1 ->]|[(i & -> & Hi & Si & Fi) ->]].
      * exfalso. rewrite (HC _ _ _ _ EX) in H1. exact (first_fails _ _ _ _ Hj HS HF H1).
      * rewrite (first_unique _ a i j Hi ltac:(lia) Si Fi HS HF). reflexivity.
Qed.

Lemma map_step : forall a0 qs i, Forall (fun q => 0 <= q < n)%Z qs ->
  let a := (a0 + i * K)%nat in
  let b := (a0 + (i + length qs) * K)%nat in
  let seeds := fun i => (random (a0 + i * K)%nat, random (S (a0 + i * K))) in
  (succeed status a b -> map_f (dense_keys_f aes status random d) qs a =
     (mapM (fun iq : nat * Z => dense_keys aes d (snd iq) (seeds (fst iq))) (combine (seq i (length qs)) qs), b)) /\
  (forall j, (a <= j < b)%nat -> succeed status a j -> status j <> 1%Z ->
     map_f (dense_keys_f aes status random d) qs a = (if Nat.ltb ((j - a0) mod K) 2 then UB else Err INTERNAL, S j)).
Proof.
  intros a0. assert (HK : (2 <= K)%nat) by apply calls_two. revert HK. pose proof keys_step as KS. clearbody K. intros HK.
  induction qs as [|q qs IH]; intros i HV a b seeds; cbn [length seq combine map_f mapM].
  - split; [intros _; unfold a, b; cbn [lift]; unfold lift; f_equal; cbn [length]; lia|]. intros j Hj. unfold a, b in Hj. cbn [length] in Hj. lia.
  - inversion HV as [|? ? Hq HVs]; subst.
    destruct (KS q a Hq) as [K1 K2]. specialize (IH (S i) HVs). cbv zeta in IH. fold seeds in IH.
    replace (a0 + S i * K)%nat with (a + K)%nat in IH by (unfold a; lia).
    replace (a0 + (S i + length qs) * K)%nat with b in IH by (unfold b; cbn [length]; lia). destruct IH as [I1 I2].
    assert (Hab : (a + K <= b)%nat) by (unfold a, b; cbn [length]; nia).
    destruct (dense_keys_ok aes F clog n ltac:(lia) ltac:(lia) HL d Hd q (seeds i) Hq) as (k0 & k1 & EK & _).
    split.
    + intros HS. assert (S1 : succeed status a (a + K)) by (apply (succeed_sub _ _ _ _ _ HS); [apply le_n|exact Hab]).
      assert (S2 : succeed status (a + K) b) by (apply (succeed_sub _ _ _ _ _ HS); [apply Nat.le_add_r|apply le_n]).
      unfold bind_f at 1. rewrite (K1 S1). cbn [fst snd].
      change (random a, random (S a)) with (seeds i). rewrite EK. cbn [bind].
      unfold bind_f at 1. rewrite (I1 S2).
      destruct (mapM _ (combine (seq (S i) (length qs)) qs)); reflexivity.
    + intros j Hj HS HF. destruct (Nat.lt_ge_cases j (a + K)) as [H|H].
      * unfold bind_f at 1. rewrite (K2 j (conj (proj1 Hj) H) HS HF).
        replace ((j - a0) mod K)%nat with (j - a)%nat. { destruct (Nat.ltb _ _); reflexivity. }
        apply (Nat.mod_unique _ _ i); unfold a in *; lia.
      * assert (S1 : succeed status a (a + K)) by (apply (succeed_sub _ _ _ _ _ HS); [apply le_n|exact H]).
        assert (S2 : succeed status (a + K) j) by (apply (succeed_sub _ _ _ _ _ HS); [apply Nat.le_add_r|apply le_n]).
        unfold bind_f at 1. rewrite (K1 S1).
        change (random a, random (S a)) with (seeds i). rewrite EK. unfold bind_f at 1.
        rewrite (I2 j (conj H (proj2 Hj)) S2 HF). destruct (Nat.ltb _ _); reflexivity.
Qed.

Lemma requests_step : forall qs a, Forall (fun q => 0 <= q < n)%Z qs ->
  request_outcome status random K (length qs) a (dense_create_plain_requests aes {| dc_dpf := d; dc_size := n |} qs)
    (dense_create_plain_requests_f aes status random {| dc_dpf := d; dc_size := n |} qs a).
Proof.
  intros qs a HV. destruct (map_step a qs 0 HV) as [M1 M2]. cbn [Nat.add Nat.mul] in M1, M2. rewrite Nat.add_0_r in M1, M2.
  assert (HX : dense_create_plain_requests_f aes status random {| dc_dpf := d; dc_size := n |} qs a =
    (keys <~ map_f (dense_keys_f aes status random d) qs ;;
     pad_seed <~ generate_seed_f status random ;;
     lift (Ok ({| pq_keys := map fst keys; pq_fingerprint := 0 |},
        {| hq_plain := match keys with [] => None | _ => Some {| pq_keys := map snd keys; pq_fingerprint := 0 |} end; hq_seed := pad_seed |},
        CsDense pad_seed))) a).
  { unfold dense_create_plain_requests_f. cbn [dc_dpf dc_size]. rewrite range_check.
    replace (existsb _ qs) with false; [reflexivity|]. symmetry. apply not_true_is_false. intros HE. apply existsb_exists in HE.
    destruct HE as (q & Hin & Hq). rewrite Forall_forall in HV. specialize (HV q Hin). lia. }
  assert (HO : is_ok (mapM (fun iq : nat * Z => dense_keys aes d (snd iq) (random (a + fst iq * K)%nat, random (S (a + fst iq * K))))
      (combine (seq 0 (length qs)) qs)) = true).
  { clear M1 M2 HX. generalize 0%nat. induction HV as [|q qs Hq HV IH]; intros i; [reflexivity|]. cbn [length seq combine mapM fst snd].
    destruct (dense_keys_ok aes F clog n ltac:(lia) ltac:(lia) HL d Hd q (random (a + i * K)%nat, random (S (a + i * K))) Hq) as (k0 & k1 & EK & _).
    rewrite EK. cbn [bind]. specialize (IH (S i)). destruct (mapM _ _); [reflexivity|discriminate IH..]. }
  rewrite HX. split; [|split].
  - intros HS Hl. unfold bind_f at 1. rewrite (M1 HS), requests_eq by exact HV. unfold key_runs.
    destruct (mapM _ _) as [keys| | |]; try discriminate HO. cbn [bind]. unfold bind_f, generate_seed_f. rewrite Hl. reflexivity.
  - intros HS Hl. unfold bind_f at 1. rewrite (M1 HS), requests_eq by exact HV. unfold key_runs.
    destruct (mapM _ _) as [keys| | |]; try discriminate HO. cbn [bind]. unfold bind_f, generate_seed_f.
    destruct (Z.eqb_spec (status (a + length qs * K)%nat) 1); [contradiction|]. reflexivity.
  - intros j Hj HS HF. unfold bind_f at 1. rewrite (M2 j Hj HS HF). destruct (Nat.ltb _ _); reflexivity.
Qed.
Lemma key_runs_ok : forall seeds qs, Forall (fun q => 0 <= q < n)%Z qs -> forall i, exists keys, key_runs d aes seeds i qs = Ok keys.
Proof.
  intros seeds qs HV. unfold key_runs. induction HV as [|q qs Hq HV IH]; intros i; cbn [length seq combine mapM fst snd]; [eauto|].
  destruct (dense_keys_ok aes F clog n ltac:(lia) ltac:(lia) HL d Hd q (seeds i) Hq) as (k0 & k1 & EK & _).
  rewrite EK. cbn [bind]. destruct (IH (S i)) as [keys ->]. cbn [bind]. eauto.
Qed.
End Requests.

(** ** Creation and responses: every failure is reported *)

(** Creation of clients and servers: for all configurations, databases and parameters. *)
Theorem C85_create : forall status sha F clog cfg pp cp sp encrypter db cdb sdb,
  reported status (dense_client_create_f status F clog cfg encrypter) (dense_client_create F clog cfg encrypter) /\
  reported status (cuckoo_client_create_f status sha F clog pp encrypter) (cuckoo_client_create sha F clog pp encrypter) /\
  reported status (simple_client_create_f status sha F clog pp encrypter) (simple_client_create sha F clog pp encrypter) /\
  reported status (dense_create_plain_f status F clog cfg db) (dense_create_plain F clog cfg db) /\
  reported status (cuckoo_create_plain_f status sha F clog cp cdb) (cuckoo_create_plain sha F clog cp cdb) /\
  reported status (simple_create_plain_f status sha F clog sp sdb) (simple_create_plain sha F clog sp sdb).
Proof.
  intros. split; [apply (rep_dense_client (fun _ _ => 0) status (fun _ => 0))|]. split; [apply (rep_cuckoo_client (fun _ _ => 0) status (fun _ => 0))|]. split; [apply (rep_simple_client (fun _ _ => 0) status (fun _ => 0))|].
  split; [apply (rep_dense_server (fun _ _ => 0) status (fun _ => 0))|]. split; [apply (rep_cuckoo_server (fun _ _ => 0) status (fun _ => 0))|apply (rep_simple_server (fun _ _ => 0) status (fun _ => 0))].
Qed.
Print Assumptions C85_create.

(** Answers to plain requests: for all servers and all requests. *)
Theorem C85_plain : forall aes status t ds cs ss req,
  reported status (dense_handle_plain_f aes status t ds req) (dense_handle_plain aes t ds req) /\
  reported status (cuckoo_handle_plain_f aes status t cs req) (cuckoo_handle_plain aes t cs req) /\
  reported status (simple_handle_plain_f aes status t ss req) (simple_handle_plain aes t ss req).
Proof. intros. split; [apply (rep_dense_plain aes status (fun _ => 0))|]. split; [apply (rep_cuckoo_plain aes status (fun _ => 0))|apply (rep_simple_plain aes status (fun _ => 0))]. Qed.
Print Assumptions C85_plain.

(** HandleRequest in all roles, for any of these servers; for the Leader an error of the sender comes first. *)
Theorem C85_handle_request : forall aes status parse hp_f hp, (forall q, reported status (hp_f q) (hp q)) -> forall r req n,
  let o := handle_request_f aes status parse hp_f r req n in
  (n <= snd o)%nat /\
  (succeed status n (snd o) /\ fst o = handle_request aes parse hp r req \/
   last_fails status n (snd o) /\
   (fst o = Err INTERNAL \/
    exists sender p e, r = Leader sender /\ req = RqLeader (Some p) (Some e) /\ is_ok (snd (sender (RqHelper e))) = false /\
      fst o = match snd (sender (RqHelper e)) with Ok _ => Err INTERNAL | Err c => Err c | Crash => Crash | UB => UB end)).
Proof.
  intros aes status parse hp_f hp H r req n o. destruct r as [|sender|decrypt context].
  - pose proof (H req n) as (H1 & H2). split; [exact H1|]. destruct H2 as [H2|[H2 H3]]; [left; exact H2|right]. split; [exact H2|left; exact H3].
  - destruct (rep_leader aes status (fun _ => 0) hp_f hp H sender req n) as (H1 & H2). split; [exact H1|]. destruct H2 as [H2|[H2 [H3|(p & e & x & -> & HX & HN & HO)]]].
    + left. exact H2.
    + right. split; [exact H2|left; exact H3].
    + right. split; [exact H2|right]. exists sender, p, e. split; [reflexivity|]. split; [reflexivity|]. rewrite HX.
      split; [destruct x; [exfalso; eapply HN; reflexivity|reflexivity..]|]. change (fst o = match x with Ok _ => Err INTERNAL | Err c => Err c | Crash => Crash | UB => UB end).
      unfold o. cbn [handle_request_f]. rewrite HO. destruct x; reflexivity.
  - pose proof (rep_helper aes status (fun _ => 0) parse hp_f hp H (Helper decrypt context) req n) as (H1 & H2). split; [exact H1|].
    destruct H2 as [H2|[H2 H3]]; [left; exact H2|right]. split; [exact H2|left; exact H3].
Qed.
Print Assumptions C85_handle_request.

Theorem C85_response : forall aes status c resp st,
  reported status (dense_handle_response_f aes status resp st) (dense_handle_response aes resp st) /\
  reported status (cuckoo_handle_response_f aes status c resp st) (cuckoo_handle_response aes c resp st) /\
  reported status (simple_handle_response_f aes status resp st) (simple_handle_response aes resp st).
Proof. intros. split; [apply (rep_dense_response aes status (fun _ => 0))|]. split; [apply (rep_cuckoo_response aes status (fun _ => 0))|apply (rep_simple_response aes status (fun _ => 0))]. Qed.
Print Assumptions C85_response.

(** ** Creation of requests: exactly what happens *)

(** The number of calls for the keys of one query of a database of [n] records. *)
Definition query_calls (clog : Z -> Z) (n : Z) : nat := (3 + 2 * Z.to_nat (clog n))%nat.

Theorem C85_dense_requests : forall F clog n c, (0 < n < 2147483648)%Z -> clog_ok clog n -> dense_client_create F clog (CfgDense n) true = Ok c ->
  forall aes status random qs a,
  (Forall (fun q => 0 <= q < n)%Z qs ->
   request_outcome status random (query_calls clog n) (length qs) a (dense_create_plain_requests aes c qs)
     (dense_create_plain_requests_f aes status random c qs a)) /\
  (Exists (fun q => ~ (0 <= q < n)%Z) qs -> dense_create_plain_requests_f aes status random c qs a = (Err INVALID_ARGUMENT, a)).
Proof.
  intros F clog n c Hn HL Hc aes status random qs a. destruct (client_created F clog n c Hn Hc) as [Hd Ec]. split.
  - intros HV. rewrite Ec. unfold query_calls. rewrite <- (K_value F clog n (dc_dpf c) Hd). apply (requests_step F clog n Hn HL _ Hd); exact HV.
  - intros HE. rewrite Ec. unfold dense_create_plain_requests_f. cbn [dc_size]. rewrite range_check. replace (existsb _ qs) with true; [reflexivity|].
    symmetry. apply Exists_exists in HE. destruct HE as (q & Hin & Hq). apply existsb_exists. exists q. split; [exact Hin|]. lia.
Qed.
Print Assumptions C85_dense_requests.

Lemma outcome_then : forall A B status random K m n (f : A -> res B) (model : (nat -> N * N) -> bytes -> res A) (g : A -> io B) o,
  (forall a n', g a n' = (f a, n')) ->
  request_outcome status random K m n model o ->
  request_outcome status random K m n (fun seeds pad => x <- model seeds pad ;; f x)
    (match o with (Ok a, n') => g a n' | (Err c, n') => (Err c, n') | (Crash, n') => (Crash, n') | (UB, n') => (UB, n') end).
Proof.
  intros A B status random K m n f model g o Hg (H1 & H2 & H3). split; [|split].
  - intros HS Hl. rewrite (H1 HS Hl). match goal with |- context [bind ?r _] => destruct r end; cbn [bind]; [apply Hg|reflexivity..].
  - intros HS Hl. rewrite (H2 HS Hl). match goal with |- context [bind ?r _] => destruct r end; cbn [bind]; [apply Hg|reflexivity..].
  - intros j Hj HS HF. rewrite (H3 j Hj HS HF). destruct (Nat.ltb _ _); reflexivity.
Qed.
Lemma outcome_ext : forall A status random K m n (model model' : (nat -> N * N) -> bytes -> res A) o, (forall s p, model s p = model' s p) ->
  request_outcome status random K m n model o -> request_outcome status random K m n model' o.
Proof. intros A status random K m n model model' o H (H1 & H2 & H3). split; [|split; [|exact H3]]; intros HS Hl; rewrite <- H; auto. Qed.

Lemma buckets_count : forall sha seed n k qs, length (buckets_of sha seed n k qs) = (length qs * k)%nat.
Proof.
  intros sha seed n k qs. unfold buckets_of. induction qs as [|q qs IH]; [reflexivity|]. cbn [flat_map length Nat.mul].
  rewrite app_length, map_length, seq_length, IH. reflexivity.
Qed.

Theorem C85_cuckoo_requests : forall sha F clog p c, (forall x, length (sha x) = 32%nat) -> (cp_buckets p < 2147483648)%Z -> clog_ok clog (cp_buckets p) ->
  cuckoo_client_create sha F clog (PpCuckoo p) true = Ok c ->
  forall aes status random qs a,
  request_outcome status random (query_calls clog (cp_buckets p)) (length qs * Z.to_nat (cp_functions p)) a (cuckoo_create_plain_requests aes c qs)
    (cuckoo_create_plain_requests_f aes status random c qs a).
Proof.
  intros sha F clog p c Hs Hp HL H aes status random qs a.
  destruct (cuckoo_client_parts sha F clog p c Hs Hp H) as (Hpos & Hdc & EQ).
  assert (EI : exists L, mapM (fun q => mapM (fun f : hash_function => f q (cc_buckets c)) (cc_functions c)) qs = Ok L /\
                concat L = buckets_of sha (hf_seed (cp_hash p)) (cp_buckets p) (Z.to_nat (cp_functions p)) qs).
  { clear EQ Hdc HL. unfold cuckoo_client_create in H. cbn [check bind] in H. bind_inv H. bind_inv H. apply check_ok in Hb, Hb0.
    bind_inv H. bind_inv H. bind_inv H. bind_inv H. injection H as <-.
    destruct (functions_eq sha _ _ _ _ Hb1 Hb3) as (-> & Hk & _ & _). cbn [cc_functions cc_buckets cc_dense cc_fingerprint]. rewrite to_int32_id by lia.
    eexists. split.
    - apply (mapM_map_ok _ _ _ (fun q => map (fun j => Z.of_nat (bucket sha (hf_seed (cp_hash p)) (cp_buckets p) q j)) (seq 0 (Z.to_nat (cp_functions p))))).
      intros q _. rewrite mapM_map_arg. apply mapM_map_ok. intros j _. apply function_value; auto; lia.
    - unfold buckets_of. rewrite flat_map_concat_map. reflexivity. }
  destruct EI as (L & EL & EC). rewrite <- (buckets_count sha (hf_seed (cp_hash p)) (cp_buckets p)).
  destruct (C85_dense_requests F clog _ _ (conj Hpos Hp) HL Hdc aes status random (concat L) a) as [HD _]. rewrite EC in HD.
  specialize (HD (buckets_valid _ _ _ _ _ Hpos)).
  eapply outcome_ext; [intros s0 p0; symmetry; apply EQ|]. unfold cuckoo_create_plain_requests_f. rewrite EL. unfold bind_f, lift at 1. rewrite EC.
  eapply (outcome_then _ _ _ _ _ _ _ _ _ (fun x => let '(l, h, state) := x in let '(l, h) := add_fingerprint (cc_fingerprint c) l h in
    lift (Ok (l, h, CsCuckoo (dense_seed state) qs)))) in HD.
  - exact HD.
  - intros [[l h] st] n'. destruct (add_fingerprint (cc_fingerprint c) l h). reflexivity.
Qed.
Print Assumptions C85_cuckoo_requests.

Theorem C85_simple_requests : forall sha F clog p c, (forall x, length (sha x) = 32%nat) -> (sp_buckets p < 2147483648)%Z -> clog_ok clog (sp_buckets p) ->
  simple_client_create sha F clog (PpSimple p) true = Ok c ->
  forall aes status random qs a,
  request_outcome status random (query_calls clog (sp_buckets p)) (length qs) a (simple_create_plain_requests aes c qs)
    (simple_create_plain_requests_f aes status random c qs a).
Proof.
  intros sha F clog p c Hs Hp HL H aes status random qs a.
  destruct (simple_client_parts sha F clog p c Hs Hp H) as (Hpos & Hdc & EQ).
  assert (EI : mapM (fun q => sc_function c q (sc_buckets c)) qs = Ok (buckets_of sha (hf_seed (sp_hash p)) (sp_buckets p) 1 qs)).
  { clear EQ Hdc HL. unfold simple_client_create in H. cbn [check bind] in H. bind_inv H. apply check_ok in Hb.
    bind_inv H. bind_inv H. bind_inv H. bind_inv H. bind_inv H. injection H as <-.
    destruct (functions_eq sha _ _ _ _ Hb0 Hb2) as (-> & Hk & _ & _). cbn in Hb3. injection Hb3 as <-. cbn [sc_function sc_buckets sc_dense sc_fingerprint].
    rewrite to_int32_id by lia.
    rewrite (mapM_map_ok _ _ _ (fun q => Z.of_nat (bucket sha (hf_seed (sp_hash p)) (sp_buckets p) q 0))).
    - unfold buckets_of. cbn [seq map]. f_equal.
    - intros q _. apply (function_value sha (hf_seed (sp_hash p)) q (sp_buckets p) 0); auto; lia. }
  replace (length qs) with (length qs * 1)%nat by lia. rewrite <- (buckets_count sha (hf_seed (sp_hash p)) (sp_buckets p)).
  destruct (C85_dense_requests F clog _ _ (conj Hpos Hp) HL Hdc aes status random (buckets_of sha (hf_seed (sp_hash p)) (sp_buckets p) 1 qs) a) as [HD _].
  specialize (HD (buckets_valid _ _ _ _ _ Hpos)).
  eapply outcome_ext; [intros s0 p0; symmetry; apply EQ|]. unfold simple_create_plain_requests_f. rewrite EI. unfold bind_f, lift at 1.
  eapply (outcome_then _ _ _ _ _ _ _ _ _ (fun x => let '(l, h, state) := x in let '(l, h) := add_fingerprint (sc_fingerprint c) l h in
    lift (Ok (l, h, CsSimple (dense_seed state) qs)))) in HD.
  - exact HD.
  - intros [[l h] st] n'. destruct (add_fingerprint (sc_fingerprint c) l h). reflexivity.
Qed.
Print Assumptions C85_simple_requests.

(** ** What a failing RAND_bytes leads to *)

(** The failure of the last call of RAND_bytes is not noticed: the seed of the one-time pad is zero. *)
Theorem C85_pad_refuted : forall F clog n c, (0 < n < 2147483648)%Z -> clog_ok clog n -> dense_client_create F clog (CfgDense n) true = Ok c ->
  forall aes random qs, Forall (fun q => 0 <= q < n)%Z qs ->
  let k := (length qs * query_calls clog n)%nat in
  exists l h, dense_create_plain_requests_f aes (fails_at k 0) random c qs 0%nat = (Ok (l, h, CsDense (repeat 0 16)), S k) /\ hq_seed h = repeat 0 16.
Proof.
  intros F clog n c Hn HL Hc aes random qs HV k.
  destruct (C85_dense_requests F clog n c Hn HL Hc aes (fails_at k 0) random qs 0%nat) as [H _]. destruct (H HV) as (_ & H2 & _). clear H.
  cbn [Nat.add] in H2. rewrite H2.
  - destruct (client_created F clog n c Hn Hc) as [Hd Ec].
    rewrite Ec, requests_eq by exact HV.
    destruct (key_runs_ok F clog n Hn HL (dc_dpf c) Hd aes (fun _ => 1%Z) random (fun i => (random (i * query_calls clog n)%nat, random (S (i * query_calls clog n)))) qs HV 0) as [keys EK].
    rewrite EK. cbn [bind]. eexists _, _. split; reflexivity.
  - intros i Hi. unfold fails_at. destruct (Nat.eqb_spec i k); [exfalso; lia|reflexivity].
  - unfold fails_at. fold k. rewrite Nat.eqb_refl. discriminate.
Qed.
Print Assumptions C85_pad_refuted.
(** If this call fails then the Leader reads the answers: its own response, unmasked with zeros, contains the records that were asked for. *)
Theorem C85_leader_reads : forall aes F clog records t0 t1 db0 db1 queries serialize parse encrypt decrypt context status random a,
  let n := Z.of_nat (length records) in
  records_ok records -> clog_ok clog n -> target_ok t0 -> target_ok t1 ->
  dense_fits clog n t0 -> dense_fits clog n t1 -> (n < 2147483648)%Z ->
  holds db0 records -> holds db1 records ->
  queries <> [] -> Forall (fun q => 0 <= q < n)%Z queries ->
  (forall h, parse (serialize h) = Some h) ->
  (forall m, exists e, encrypt m context = Ok e /\ decrypt e context = Ok m) ->
  let last := (a + length queries * query_calls clog n)%nat in
  succeed status a last -> status last <> 1%Z ->
  exists c s0 s1 req state response,
    dense_client_create F clog (CfgDense n) true = Ok c /\
    dense_create_plain F clog (CfgDense n) (Some db0) = Ok s0 /\
    dense_create_plain F clog (CfgDense n) (Some db1) = Ok s1 /\
    create_request_f serialize encrypt context (dense_create_plain_requests_f aes status random c queries) a = (Ok (req, state), S last) /\
    handle_request aes parse (dense_handle_plain aes t0 s0)
      (Leader (honest_sender (handle_request aes parse (dense_handle_plain aes t1 s1) (Helper decrypt context)))) req = Ok response /\
    dense_handle_response aes response (CsDense (repeat 0 16))
    = Ok (map (fun q => zero_padded (longest records) (nth (Z.to_nat q) records [])) queries).
Proof.
  intros aes F clog records t0 t1 db0 db1 queries serialize parse encrypt decrypt context status random a n HR HL T0 T1 F0 F1 Hlen D0 D1 Hne HQ HS HE last Ha Hf.
  assert (Hn : (0 < n < 2147483648)%Z).
  { split; [|exact Hlen]. destruct queries as [|q qs]; [congruence|]. inversion HQ; subst. lia. }
  set (seeds := fun i => (random (a + i * query_calls clog n)%nat, random (S (a + i * query_calls clog n)))).
  destruct (C32_leader_helper_partial aes F clog records t0 t1 db0 db1 queries seeds (repeat 0 16) serialize parse encrypt decrypt context
    HR HL T0 T1 F0 F1 Hlen D0 D1 Hne HQ (repeat_length _ _) HS HE) as (c & s0 & s1 & req & state & response & Hc & H0 & H1 & HC & HH & HO).
  exists c, s0, s1, req, state, response. split; [exact Hc|]. split; [exact H0|]. split; [exact H1|].
  destruct (C85_dense_requests F clog n c Hn HL Hc aes status random queries a) as [HD _]. destruct (HD HQ) as (_ & H2 & _). specialize (H2 Ha Hf).
  fold seeds last in H2. unfold create_request in HC. unfold create_request_f, bind_f. rewrite H2.
  destruct (dense_create_plain_requests aes c queries seeds (repeat 0 16)) as [[[l h] st]| | |] eqn:EQ; try discriminate. cbn [bind] in HC.
  destruct (client_created F clog n c Hn Hc) as [Hd Ec]. rewrite Ec, requests_eq in EQ by exact HQ. bind_inv EQ. injection EQ as <- <- <-.
  bind_inv HC. injection HC as <- <-. split; [unfold lift; rewrite Hb0; reflexivity|]. split; [exact HH|exact HO].
Qed.
Print Assumptions C85_leader_reads.
(** The failure of a call that draws a seed of a key leads to a key from uninitialised memory. *)
Theorem C85_seed_refuted : forall F clog n c, (0 < n < 2147483648)%Z -> clog_ok clog n -> dense_client_create F clog (CfgDense n) true = Ok c ->
  forall aes random qs, Forall (fun q => 0 <= q < n)%Z qs -> forall i, (i < length qs)%nat ->
  let k := (i * query_calls clog n)%nat in
  fst (dense_create_plain_requests_f aes (fails_at k 0) random c qs 0%nat) = UB /\
  fst (dense_create_plain_requests_f aes (fails_at (S k) 0) random c qs 0%nat) = UB.
Proof.
  intros F clog n c Hn HL Hc aes random qs HV i Hi k.
  assert (HX : forall b, (b < 2)%nat -> fst (dense_create_plain_requests_f aes (fails_at (k + b) 0) random c qs 0%nat) = UB).
  { intros b Hb. destruct (C85_dense_requests F clog n c Hn HL Hc aes (fails_at (k + b) 0) random qs 0%nat) as [H _]. destruct (H HV) as (_ & _ & H3).
    rewrite (H3 (k + b)%nat).
    - cbn [fst]. rewrite Nat.sub_0_r. unfold k. rewrite Nat.add_comm, Nat.mod_add by (unfold query_calls; lia).
      rewrite Nat.mod_small by (unfold query_calls; lia). destruct (Nat.ltb_spec b 2); [reflexivity|lia].
    - unfold k. cbn [Nat.add]. assert (HQ : (3 <= query_calls clog n)%nat) by (unfold query_calls; lia). clear - Hi Hb HQ. nia.
    - intros j Hj. unfold fails_at. destruct (Nat.eqb_spec j (k + b)); [exfalso; lia|reflexivity].
    - unfold fails_at. rewrite Nat.eqb_refl. discriminate. }
  split; [rewrite <- (Nat.add_0_r k); apply HX; lia|]. replace (S k) with (k + 1)%nat by lia. apply HX. lia.
Qed.
Print Assumptions C85_seed_refuted.

Theorem C85_params : forall status random scale config n,
  cuckoo_generate_params_f status random scale config n =
    match cuckoo_generate_params scale (if (status n =? 1)%Z then le_encode 16 (random n) else repeat 0 16) config with
    | Ok p => (Ok p, S n) | e => (e, n) end /\
  simple_generate_params_f status random config n =
    match simple_generate_params (if (status n =? 1)%Z then le_encode 16 (random n) else repeat 0 16) config with
    | Ok p => (Ok p, S n) | e => (e, n) end.
Proof.
  intros status random scale config n. unfold cuckoo_generate_params_f, simple_generate_params_f, bind_f, lift, generate_seed_f.
  destruct config as [|m|family m|family m]; cbn [cuckoo_generate_params simple_generate_params]; split; try reflexivity;
    destruct (m <=? 0)%Z; try reflexivity; destruct (family =? 0)%Z; try reflexivity; destruct (status n =? 1)%Z; reflexivity.
Qed.
Print Assumptions C85_params.

(** ** Numbers of calls with which a server answers *)
Definition answer_calls (levels : nat) : nat := (total (map (fun i => 2 * batches (2 ^ i))%nat (seq 0 levels)) + batches (2 ^ levels))%nat.

Lemma expand_cost : forall F clog n d, create_incremental F (dense_params clog n) = Ok d -> forall aes status key,
  does (dense_expand_f aes status d key) (fun _ => True) (answer_calls (Z.to_nat (clog n))).
Proof.
  intros F clog n d Hd aes status key.
  assert (W : wf d) by (apply (created_wf F (dense_params clog n) [] d); exists d; split; [exact Hd|split; [constructor|reflexivity]]).
  assert (EF : full_calls d 0 0 1 = answer_calls (Z.to_nat (clog n))).
  { destruct (dense_shape F clog n d Hd) as [H1 H2]. unfold full_calls, expand_calls, answer_calls. rewrite H1, H2, Nat.sub_0_r, Nat.mul_1_r, !Nat.mul_1_l.
    f_equal. f_equal. apply map_ext. intros i. rewrite Nat.mul_1_l. reflexivity. }
  intros a v a' E. split; [exact I|]. rewrite <- EF. unfold dense_expand_f, bind_f, lift in E.
  unfold create_evaluation_context in E. destruct (validate_dpf_key d key) as [[]| | |] eqn:EK; try discriminate. cbn [bind] in E.
  match type of E with context [evaluate_next_f aes status d block_type [] ?c a] => set (ctx := c) in * end.
  destruct (evaluate_next_f aes status d block_type [] ctx a) as [[[v1| | |] c1] a1] eqn:EN; try discriminate. injection E as _ <-.
  exact (proj2 (cost_until aes status d block_type 0 [] ctx W eq_refl EK a v1 c1 a1 EN)).
Qed.
Lemma expand_all_cost : forall F clog n d, create_incremental F (dense_params clog n) = Ok d -> forall aes status keys,
  does (map_f (dense_expand_f aes status d) keys) (fun _ => True) (length keys * answer_calls (Z.to_nat (clog n))).
Proof.
  intros F clog n d Hd aes status keys a v a' E. split; [exact I|].
  destruct (does_map _ _ (dense_expand_f aes status d) (fun _ _ => True) (fun _ => answer_calls (Z.to_nat (clog n))) keys
    (fun k _ => expand_cost F clog n d Hd aes status k) a v a' E) as [_ ->]. f_equal. clear.
  induction keys as [|k keys IH]; [reflexivity|]. cbn [map total fold_right length Nat.mul]. f_equal. exact IH.
Qed.

(** Successful answers to requests with as many keys take as many calls, whatever the keys, the database and the blocks. *)
Theorem C85_answer_calls : forall sha F clog aes status t n dense cuckoo simple db cp cdb sp sdb q,
  (dense_create_plain F clog (CfgDense n) db = Ok dense ->
   makes_calls (dense_handle_plain_f aes status t dense (RqPlain q)) (length (pq_keys q) * answer_calls (Z.to_nat (clog n)))) /\
  (cuckoo_create_plain sha F clog cp cdb = Ok cuckoo ->
   makes_calls (cuckoo_handle_plain_f aes status t cuckoo (RqPlain q)) (length (pq_keys q) * answer_calls (Z.to_nat (clog (cp_buckets cp))))) /\
  (simple_create_plain sha F clog sp sdb = Ok simple ->
   makes_calls (simple_handle_plain_f aes status t simple (RqPlain q)) (length (pq_keys q) * answer_calls (Z.to_nat (clog (sp_buckets sp))))).
Proof.
  intros sha F clog aes status t n dense cuckoo simple db cp cdb sp sdb q. split; [|split]; intros H a v a' E.
  - unfold dense_create_plain in H. bind_inv H. bind_inv H. bind_inv H. bind_inv H. injection H as <-.
    unfold dense_handle_plain_f, bind_f, lift in E. cbn [ds_dpf] in E. match type of E with context [check ?x ?y] => destruct (check x y); try discriminate E end.
    match type of E with context [map_f ?f ?l a] => destruct (map_f f l a) as [[sel| | |] aX] eqn:EM; try discriminate end.
    pose proof (expand_all_cost F clog _ _ Hb2 aes status _ _ _ _ EM) as [_ HA]. apply (f_equal snd) in E. cbn [snd] in E. rewrite <- E. exact HA.
  - unfold cuckoo_create_plain in H. bind_inv H. bind_inv H. bind_inv H. bind_inv H. bind_inv H. bind_inv H. bind_inv H. injection H as <-.
    unfold cuckoo_handle_plain_f, sparse_selections_f, bind_f, lift in E. cbn [cs_dpf] in E. match type of E with context [check ?x ?y] => destruct (check x y); try discriminate E end.
    match type of E with context [check ?x ?y] => destruct (check x y); try discriminate E end.
    match type of E with context [map_f ?f ?l a] => destruct (map_f f l a) as [[sel| | |] aX] eqn:EM; try discriminate end.
    pose proof (expand_all_cost F clog _ _ Hb4 aes status _ _ _ _ EM) as [_ HA]. apply (f_equal snd) in E. cbn [snd] in E. rewrite <- E. exact HA.
  - unfold simple_create_plain in H. bind_inv H. bind_inv H. bind_inv H. bind_inv H. bind_inv H. bind_inv H. injection H as <-.
    unfold simple_handle_plain_f, sparse_selections_f, bind_f, lift in E. cbn [ss_dpf] in E. match type of E with context [check ?x ?y] => destruct (check x y); try discriminate E end.
    match type of E with context [check ?x ?y] => destruct (check x y); try discriminate E end.
    match type of E with context [map_f ?f ?l a] => destruct (map_f f l a) as [[sel| | |] aX] eqn:EM; try discriminate end.
    pose proof (expand_all_cost F clog _ _ Hb3 aes status _ _ _ _ EM) as [_ HA]. apply (f_equal snd) in E. cbn [snd] in E. rewrite <- E. exact HA.
Qed.
Print Assumptions C85_answer_calls.

(** * The hypotheses can be met *)
Definition xfp_random (n : nat) : N := N.of_nat n * 1234567 + 99.
Definition xfp_calls : nat := (2 * query_calls xp_clog 30)%nat.
(** Two queries to 30 records take 2 * 13 calls: each failure has the outcome of the theorem. *)
Example C85_requests_nonvacuous :
  match xw_client with
  | Ok c => dense_client_create ex_F xp_clog (CfgDense 30) true = Ok c /\ clog_ok xp_clog 30 /\ xfp_calls = 26%nat /\
      forallb (fun k => match dense_create_plain_requests_f ex_aes (fails_at k 0) xfp_random c [0; 29]%Z 0%nat with
                        | (UB, m) => Nat.eqb m (S k) && existsb (Nat.eqb k) [0; 1; 13; 14]%nat
                        | (Err INTERNAL, m) => Nat.eqb m (S k) && negb (existsb (Nat.eqb k) [0; 1; 13; 14]%nat)
                        | _ => false end) (seq 0 26) = true /\
      match dense_create_plain_requests_f ex_aes (fails_at 26 0) xfp_random c [0; 29]%Z 0%nat,
            dense_create_plain_requests_f ex_aes (fails_at 27 0) xfp_random c [0; 29]%Z 0%nat with
      | (Ok (l, h, _), m), (Ok (l', h', _), m') => l = l' /\ hq_seed h = repeat 0 16 /\ hq_seed h' <> repeat 0 16 /\ m = 27%nat /\ m' = 27%nat
      | _, _ => False
      end
  | _ => False
  end.
Proof.
  assert (HC : clog_ok xp_clog 30) by (apply xp_clog_ok; reflexivity).
  set (P := clog_ok xp_clog 30) in *. clearbody P. vm_compute. repeat split; try exact HC; discriminate.
Qed.
(** The Leader reads three of five records if RAND_bytes fails once; requests travel unencrypted. *)
Definition xfp_run (k : nat) : res (res (list bytes)) :=
  db <- fst (build xa_alloc (fold_left insert xp_five new_builder)) ;;
  c <- dense_client_create ex_F xp_clog (CfgDense 5) true ;;
  s <- dense_create_plain ex_F xp_clog (CfgDense 5) (Some db) ;;
  '(l, h, state) <- fst (dense_create_plain_requests_f ex_aes (fails_at k 0) xfp_random c [4; 2; 1]%Z 0%nat) ;;
  '(req, state) <- create_request (fun _ => []) (fun m _ => Ok m) [] (Ok (l, h, state)) ;;
  r <- handle_request ex_aes (fun _ => Some h) (dense_handle_plain ex_aes xt_t s)
         (Leader (honest_sender (handle_request ex_aes (fun _ => Some h) (dense_handle_plain ex_aes xp_scalar s) (Helper (fun m _ => Ok m) [])))) req ;;
  Ok (dense_handle_response ex_aes r (CsDense (repeat 0 16))).
Example C85_leader_reads_nonvacuous :
  xfp_run (3 * query_calls xp_clog 5) = Ok (Ok [[255; 0; 3] ++ repeat 0 15; repeat 77 18; repeat 0 18]) /\
  xfp_run 1000 <> Ok (Ok [[255; 0; 3] ++ repeat 0 15; repeat 77 18; repeat 0 18]).
Proof. vm_compute. split; [reflexivity|discriminate]. Qed.
(** Each of the calls with which the server answers can fail. *)
Example C85_plain_nonvacuous :
  match fst (build xa_alloc (fold_left insert xp_five new_builder)), dense_client_create ex_F xp_clog (CfgDense 5) true with
  | Ok db, Ok c =>
      match dense_create_plain ex_F xp_clog (CfgDense 5) (Some db), dense_create_plain_requests ex_aes c [4; 2]%Z xp_seeds xp_seed with
      | Ok s, Ok (l, h, _) =>
          let calls := (2 * answer_calls 3)%nat in
          forallb (fun k => match dense_handle_plain_f ex_aes (fails_at k 0) xt_t s (RqPlain l) 0%nat with (Err INTERNAL, m) => Nat.eqb m (S k) | _ => false end)
            (seq 0 calls) = true /\
          calls = 14%nat /\ snd (dense_handle_plain_f ex_aes (fails_at calls 0) xt_t s (RqPlain l) 0%nat) = calls /\
          fst (dense_handle_plain_f ex_aes (fails_at calls 0) xt_t s (RqPlain l) 0%nat) = dense_handle_plain ex_aes xt_t s (RqPlain l) /\
          is_ok (dense_handle_plain ex_aes xt_t s (RqPlain l)) = true
      | _, _ => False
      end
  | _, _ => False
  end.
Proof. vm_compute. repeat split. Qed.
(** The Helper: the failure of AES_set_encrypt_key. *)
Example C85_helper_nonvacuous :
  handle_request_f ex_aes (fails_at 0 0) (fun _ => Some xp_inner) (fun _ n => (Ok (Some xp_helper), n)) (Helper (fun e _ => Ok e) []) (RqHelper []) 0%nat
    = (Err INTERNAL, 1%nat) /\
  is_ok (fst (handle_request_f ex_aes (fails_at 1 0) (fun _ => Some xp_inner) (fun _ n => (Ok (Some xp_helper), n)) (Helper (fun e _ => Ok e) []) (RqHelper []) 0%nat))
    = true.
Proof. vm_compute. split; reflexivity. Qed.
(** Sparse PIR: the outcomes for one query with each failing call. *)
Example C85_sparse_nonvacuous :
  match cuckoo_client_create xq_sha ex_F xp_clog (PpCuckoo (xq_params 12)) true, simple_client_create xq_sha ex_F xp_clog (PpSimple xw_simple) true with
  | Ok c, Ok s =>
      map (fun k => match cuckoo_create_plain_requests_f ex_aes (fails_at k 0) xfp_random c xw_qs 0%nat with
                    | (Ok (_, h, _), m) => (0, m) | (Err _, m) => (1, m) | (Crash, m) => (2, m) | (UB, m) => (3, m) end) (seq 0 46) =
      map (fun k => if Nat.eqb k 44 || Nat.eqb k 45 then (0, 45%nat) else if Nat.ltb (Nat.modulo k 11) 2 then (3, S k) else (1, S k)) (seq 0 46) /\
      map (fun k => match simple_create_plain_requests_f ex_aes (fails_at k 0) xfp_random s xw_qs 0%nat with
                    | (Ok (_, h, _), m) => (0, m) | (Err _, m) => (1, m) | (Crash, m) => (2, m) | (UB, m) => (3, m) end) (seq 0 24) =
      map (fun k => if Nat.eqb k 22 || Nat.eqb k 23 then (0, 23%nat) else if Nat.ltb (Nat.modulo k 11) 2 then (3, S k) else (1, S k)) (seq 0 24)
  | _, _ => False
  end.
Proof. vm_compute. split; reflexivity. Qed.
