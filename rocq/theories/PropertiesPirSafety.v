(** C54: PIR servers and untrusted requests.  C55: PIR clients and untrusted responses. *)
From Coq Require Import List NArith ZArith QArith Lia Bool ZifyBool ZifyNat ZifyN.
From Verif Require Import Base ListUtil ValueTypesModel ValueTypesSpec ValueTypesProofs TypeProofs DpfModel DpfWf DpfSpec DpfEval DpfCtx DpfReach
  DpfSafe DpfFacts DpfExamples PropertiesDpf PropertiesDpfApi PirDbModel PirSpec PirDbProofs PirIpProofs PirBuildProofs PirModel PirProtoSpec PirProtoProofs
  PirDenseProofs PropertiesPir PropertiesPirProto HashModel SparseModel SparseSpec SparseProofs SparseDbProofs PropertiesSparse.
Import ListNotations.
Ltac Zify.zify_post_hook ::= Z.div_mod_to_equations.
Open Scope N_scope.

(** ** C54: servers *)

(** What the caller supplies does not itself crash. *)
Definition role_safe (r : role) : Prop :=
  match r with
  | Plain => True
  | Leader sender => forall req, safe (snd (sender req))
  | Helper decrypt _ => forall c i, safe (decrypt c i)
  end.
(** Records of bytes, shorter than 2^31. *)
Definition byte_records (records : list bytes) : Prop :=
  Forall (fun r => is_bytes r /\ (Z.of_nat (length r) < 2147483648)%Z) records.

Lemma combine_safe : forall h l, safe (combine_responses h l).
Proof.
  induction h as [|x h IH]; intros [|y l]; cbn [combine_responses]; try apply ok_safe.
  apply bind_safe; [apply check_safe|]. intros _ _. apply bind_safe; [apply IH|]. intros r _. apply ok_safe.
Qed.
Lemma masked_safe : forall aes seed l, safe (p <- prng_create seed ;; mask_all aes p l).
Proof.
  intros aes seed l. destruct (Nat.eqb_spec (length seed) 16) as [E|E].
  - rewrite mask_created by assumption. apply ok_safe.
  - unfold prng_create, prng_create_with_nonce. destruct (Nat.eqb_spec (length seed) 16); [contradiction|]. apply err_safe.
Qed.

(** A server of any role is as safe as its handling of plain requests. *)
Lemma handle_request_safe : forall aes parse handle_plain r req, role_safe r -> (forall q, safe (handle_plain q)) ->
  safe (handle_request aes parse handle_plain r req).
Proof.
  intros aes parse hp r req Hr Hp. destruct r as [|sender|decrypt context]; cbn [handle_request role_safe] in *; [apply Hp| |].
  - unfold handle_leader_request. destruct req as [| | |plain enc|]; try apply err_safe.
    destruct plain as [plain|]; [|apply err_safe]. destruct enc as [enc|]; [|apply err_safe]. cbn [bind].
    specialize (Hr (RqHelper enc)). destruct (sender (RqHelper enc)) as [has_run hr]. cbn [snd] in Hr.
    apply bind_safe.
    { unfold while_waiting. destruct has_run; [|apply ok_safe]. pose proof (Hp (RqPlain plain)) as [H1 H2].
      destruct (hp (RqPlain plain)); try congruence; apply ok_safe. }
    intros lr Hlr. apply bind_safe; [exact Hr|]. intros h _. apply bind_safe; [apply check_safe|]. intros _ _.
    apply bind_safe.
    { unfold while_waiting in Hlr. destruct has_run; [|injection Hlr as <-; apply err_safe].
      pose proof (Hp (RqPlain plain)) as [H1 H2]. destruct (hp (RqPlain plain)); try congruence; injection Hlr as <-; [apply ok_safe|apply err_safe]. }
    intros l _. apply bind_safe; [apply check_safe|]. intros _ _. destruct l as [l|]; [|apply ok_safe].
    apply bind_safe; [apply combine_safe|]. intros l' _. apply ok_safe.
  - unfold handle_helper_request. destruct req as [| | | |enc]; try apply err_safe.
    apply bind_safe; [apply Hr|]. intros dec _. destruct (parse dec) as [inner|]; [|apply err_safe]. cbn [bind].
    apply bind_safe; [apply Hp|]. intros resp _. destruct resp as [l|].
    + pose proof (masked_safe aes (hq_seed inner) l) as HM.
      destruct (prng_create (hq_seed inner)) as [p|e| |]; cbn [bind] in *; try exact HM; try apply err_safe;
        [|destruct HM; congruence|destruct HM; congruence].
      apply bind_safe; [exact HM|]. intros l' _. apply ok_safe.
    + unfold prng_create, prng_create_with_nonce. apply bind_safe; [|intros; apply ok_safe].
      apply bind_safe; [apply check_safe|]. intros _ _. apply bind_safe; [apply check_safe|]. intros _ _. apply ok_safe.
Qed.

(** The expansion of an arbitrary key: an error or one block for each element of the domain. *)
Lemma expand_any : forall aes F clog n d key, (0 < n)%Z -> (n < 9223372036854775808)%Z -> clog_ok clog n ->
  create_incremental F (dense_params clog n) = Ok d -> (clog n < 60)%Z ->
  safe (dense_expand aes d key) /\ forall e, dense_expand aes d key = Ok e -> length e = nblocks clog n.
Proof.
  intros aes F clog n d key Hn Hn63 HL Hd Hc. pose proof (clog_range clog n Hn Hn63 HL) as HR.
  assert (HC : created F (dense_params clog n) [] d). { exists d. split; [exact Hd|]. split; [constructor|reflexivity]. }
  destruct (created_wf _ _ _ _ HC) as (W & HLen & _). cbn [length dense_params] in HLen.
  assert (HT : level_has (dense_params clog n) 0 block_type) by apply dense_has.
  assert (HEf : expansion_fits d None 0 []).
  { split; [left; reflexivity|]. cbn [length Nat.max]. rewrite Nat.sub_0_r.
    pose proof (wf_h2t_ld d W 0 ltac:(unfold nlevels; lia)) as H1.
    destruct (nth_error (d_params d) 0) as [p|] eqn:Ep; [|apply nth_error_None in Ep; lia].
    pose proof (wf_ld_z d W 0 p Ep) as [_ H2]. unfold h2t in H1.
    assert (p_ld p = clog n). { rewrite (create_params _ _ _ Hd) in Ep. injection Ep as <-. apply default_sec_ld. }
    rewrite N.mul_1_l. apply N.pow_lt_mono_r; lia. }
  assert (HE : forall c, evaluate_next aes d block_type [] c = evaluate_until aes d block_type 0 [] c) by reflexivity.
  unfold dense_expand. assert (HV : safe (create_evaluation_context d key)).
  { unfold create_evaluation_context. apply bind_safe; [apply ooi_safe, validate_dpf_key_ooi; assumption|]. intros u _. apply ok_safe. }
  destruct (create_evaluation_context d key) as [c|e| |] eqn:EC; [|split; [apply err_safe|discriminate]|destruct HV; congruence|destruct HV; congruence].
  cbn [bind]. rewrite HE.
  assert (HS : safe (fst (evaluate_until aes d block_type 0 [] c))).
  { apply (C12_untrusted_contexts_partial aes F (dense_params clog n) [] d c block_type HC); try reflexivity.
    - eapply shape_roomy; [exact HC|reflexivity].
    - constructor.
    - exact HEf.
    - congruence. }
  split.
  - apply bind_safe; [exact HS|]. intros v _. apply ok_safe.
  - intros e H. destruct (evaluate_until aes d block_type 0 [] c) as [r c'] eqn:EU. cbn [fst] in H. bind_inv H. injection H as <-. subst r.
    pose proof (C06_output_order aes F (dense_params clog n) [] d key c None None block_type 0 [] a c' HC) as H6.
    destruct H6 as (_ & H6 & _); auto.
    + intros k Hk. cbn [length dense_params] in Hk. assert (k = 0)%nat as -> by lia. eauto.
    + apply after_create. exact EC.
    + rewrite map_length, H6. unfold nblocks, level_ld, dense_params. cbn [nth_error p_ld Z.to_nat]. reflexivity.
Qed.

Lemma expand_all : forall aes F clog n d keys, (0 < n)%Z -> (n < 9223372036854775808)%Z -> clog_ok clog n ->
  create_incremental F (dense_params clog n) = Ok d -> (clog n < 60)%Z ->
  safe (mapM (dense_expand aes d) keys) /\
  forall E, mapM (dense_expand aes d) keys = Ok E -> length E = length keys /\ Forall (fun e => length e = nblocks clog n) E.
Proof.
  intros aes F clog n d keys Hn Hn63 HL Hd Hc. split.
  - apply mapM_safe. intros k _. apply (expand_any aes F clog n d k); assumption.
  - intros E HE. split; [eapply mapM_length, HE|]. revert E HE. induction keys as [|k keys IH]; intros E HE; cbn [mapM] in HE.
    + injection HE as <-. constructor.
    + bind_inv HE. bind_inv HE. injection HE as <-. constructor; [|apply IH; assumption].
      eapply (expand_any aes F clog n d k); eassumption.
Qed.

(** The inner product with expansions of arbitrary keys. *)
Lemma product_safe : forall clog n t d records selections, (0 < n < 2147483648)%Z -> clog_ok clog n -> target_ok t -> dense_fits clog n t ->
  holds d records -> byte_records records -> (Z.of_nat (length records) <= n)%Z ->
  Forall (fun e => length e = nblocks clog n) selections -> safe (inner_product_with t d selections).
Proof.
  intros clog n t d records selections Hn HL HT [C0 V0] HH HB Hlen HE.
  assert (Hn63 : (n < 9223372036854775808)%Z) by lia. assert (Hpos : (0 < n)%Z) by lia.
  pose proof (clog_range clog n Hpos Hn63 HL) as HCr. pose proof (records_cover clog n Hpos Hn63 HL) as Hcov.
  pose proof (nblocks_Z clog n (proj1 HCr)) as HnbZ.
  assert (Hnb31 : (Z.of_nat (nblocks clog n) < 2147483648)%Z).
  { rewrite HnbZ. change 2147483648%Z with (2 ^ 31)%Z. apply Z.pow_lt_mono_r; lia. }
  assert (Hsc : vector_target t \/ (Z.of_nat (nblocks clog n) <= 16777216)%Z).
  { destruct V0 as [H|H]; [left; assumption|right]. rewrite HnbZ. change 16777216%Z with (2 ^ 24)%Z. apply Z.pow_le_mono_r; lia. }
  destruct selections as [|e rest] eqn:ES.
  { unfold inner_product_with. destruct HH as ((views & EC & _) & _). rewrite EC. apply ok_safe. }
  rewrite <- ES in *. assert (Hne : selections <> []) by (rewrite ES; discriminate).
  destruct (Nat.eq_dec (longest records) 0) as [E0|E0].
  - unfold inner_product_with. destruct HH as ((views & EC & _) & _ & HM). rewrite EC. cbn [bind].
    rewrite C30_rejects; [apply err_safe|exact Hne| |].
    + rewrite ES in HE |- *. inversion HE; subst. cbn [hd]. rewrite H1. exact Hnb31.
    + right. right. left. rewrite HM, E0. reflexivity.
  - rewrite (ip_with t d records selections (nblocks clog n)); auto; try lia; [apply ok_safe|].
    split; [exact HB|]. clear - E0. induction records as [|r l IH]; [cbn in E0; congruence|].
    change (longest (r :: l)) with (Nat.max (length r) (longest l)) in E0. destruct r as [|x r].
    + right. apply IH. cbn [length] in E0. lia.
    + left. discriminate.
Qed.

(** For every request proto, role and database within the size limits of the implementation
    (2^30 elements, 2^24 without vector instructions), a dense server returns a response or
    an error.  Missing: larger databases, see [C54_scalar_refuted]. *)
Theorem C54_dense_partial : forall aes F clog n t records db s parse r req,
  (0 < n < 2147483648)%Z -> clog_ok clog n -> target_ok t -> dense_fits clog n t ->
  byte_records records -> holds db records ->
  dense_create_plain F clog (CfgDense n) (Some db) = Ok s -> role_safe r ->
  safe (handle_request aes parse (dense_handle_plain aes t s) r req).
Proof.
  intros aes F clog n t records db s parse r req Hn HL HT HF HB HH HS Hr.
  apply handle_request_safe; [exact Hr|]. intros q. unfold dense_create_plain in HS. bind_inv HS. injection Hb as <-.
  bind_inv HS. bind_inv HS. apply check_ok in Hb0. bind_inv HS. injection HS as <-. rename a1 into d. rename Hb1 into Hd.
  unfold dense_handle_plain. destruct q as [| |plain| |]; try apply err_safe. cbn [ds_dpf ds_db].
  apply bind_safe; [apply check_safe|]. intros _ _.
  destruct (expand_all aes F clog n d (pq_keys plain)) as [H1 H2]; try assumption; try lia. { destruct HF. lia. }
  apply bind_safe; [exact H1|]. intros E HE. apply bind_safe; [|intros; apply ok_safe].
  destruct HH as (HH1 & HH2 & HH3). eapply (product_safe clog n t db records); try eassumption.
  - repeat split; assumption.
  - lia.
  - apply (H2 E HE).
Qed.
Print Assumptions C54_dense_partial.

(** The same for the sparse servers; their databases consist of dense databases with one record
    for each bucket, as Build makes them (C38, C41). *)
Theorem C54_cuckoo_partial : forall aes F clog sha t p K V db s parse r req,
  (forall x, length (sha x) = 32%nat) ->
  (cp_buckets p < 2147483648)%Z -> clog_ok clog (cp_buckets p) -> target_ok t -> dense_fits clog (cp_buckets p) t ->
  byte_records K -> byte_records V -> holds (cd_keys db) K -> holds (cd_values db) V ->
  length V = length K -> cd_bits db = length K ->
  cuckoo_create_plain sha F clog p (Some db) = Ok s -> role_safe r ->
  safe (handle_request aes parse (cuckoo_handle_plain aes t s) r req).
Proof.
  intros aes F clog sha t p K V db s parse r req Hsha Hn HL HT HF HBK HBV HK HV HVK Hbits HS Hr.
  apply handle_request_safe; [exact Hr|]. intros q. unfold cuckoo_create_plain in HS.
  bind_inv HS. apply check_ok in Hb. bind_inv HS. bind_inv HS. bind_inv HS. injection Hb2 as <-. bind_inv HS. apply check_ok in Hb2. bind_inv HS. bind_inv HS. injection HS as <-.
  unfold cuckoo_handle_plain. cbn [cs_dpf cs_db cs_fingerprint]. rename a3 into d. rename Hb3 into Hd.
  assert (HE : safe (sparse_selections aes d a4 q) /\ forall E, sparse_selections aes d a4 q = Ok E -> Forall (fun e => length e = nblocks clog (cp_buckets p)) E).
  { unfold sparse_selections. destruct q as [| |plain| |]; try (split; [apply err_safe|discriminate]).
    destruct (expand_all aes F clog (cp_buckets p) d (pq_keys plain)) as [H1 H2]; try assumption; try lia. { destruct HF. lia. }
    split.
    - apply bind_safe; [apply check_safe|]. intros _ _. apply bind_safe; [apply check_safe|]. intros _ _. exact H1.
    - intros E HE. bind_inv HE. bind_inv HE. apply (H2 E HE). }
  destruct HE as [HE1 HE2]. apply bind_safe; [exact HE1|]. intros E HE. specialize (HE2 E HE).
  apply bind_safe; [|intros; apply ok_safe]. unfold cuckoo_inner_product.
  apply bind_safe. { eapply (product_safe clog (cp_buckets p) t _ K); try eassumption; lia. }
  intros ks _. apply bind_safe. { eapply (product_safe clog (cp_buckets p) t _ V); try eassumption; lia. }
  intros vs _. apply bind_safe; [apply check_safe|]. intros _ _. apply ok_safe.
Qed.
Print Assumptions C54_cuckoo_partial.
Theorem C54_simple_partial : forall aes F clog sha t p R db s parse r req,
  (forall x, length (sha x) = 32%nat) ->
  (sp_buckets p < 2147483648)%Z -> clog_ok clog (sp_buckets p) -> target_ok t -> dense_fits clog (sp_buckets p) t ->
  byte_records R -> holds (sd_dense db) R -> sd_bits db = Z.of_nat (length R) ->
  simple_create_plain sha F clog p (Some db) = Ok s -> role_safe r ->
  safe (handle_request aes parse (simple_handle_plain aes t s) r req).
Proof.
  intros aes F clog sha t p R db s parse r req Hsha Hn HL HT HF HBR HR Hbits HS Hr.
  apply handle_request_safe; [exact Hr|]. intros q. unfold simple_create_plain in HS.
  bind_inv HS. apply check_ok in Hb. bind_inv HS. bind_inv HS. injection Hb1 as <-. bind_inv HS. apply check_ok in Hb1. bind_inv HS. bind_inv HS. injection HS as <-.
  unfold simple_handle_plain. cbn [ss_dpf ss_db ss_fingerprint]. rename a2 into d. rename Hb2 into Hd.
  assert (HE : safe (sparse_selections aes d a3 q) /\ forall E, sparse_selections aes d a3 q = Ok E -> Forall (fun e => length e = nblocks clog (sp_buckets p)) E).
  { unfold sparse_selections. destruct q as [| |plain| |]; try (split; [apply err_safe|discriminate]).
    destruct (expand_all aes F clog (sp_buckets p) d (pq_keys plain)) as [H1 H2]; try assumption; try lia. { destruct HF. lia. }
    split.
    - apply bind_safe; [apply check_safe|]. intros _ _. apply bind_safe; [apply check_safe|]. intros _ _. exact H1.
    - intros E HE. bind_inv HE. bind_inv HE. apply (H2 E HE). }
  destruct HE as [HE1 HE2]. apply bind_safe; [exact HE1|]. intros E HE. specialize (HE2 E HE).
  apply bind_safe; [|intros; apply ok_safe]. eapply (product_safe clog (sp_buckets p) t _ R); try eassumption; lia.
Qed.
Print Assumptions C54_simple_partial.

(** Without vector instructions, a database of 2^24 + 1 elements makes every well-formed request
    undefined behaviour: the int index of the inner product overflows. *)
Theorem C54_scalar_refuted : exists records, records_ok records /\ (Z.of_nat (length records) < 2147483648)%Z /\
  (exists db, holds db records) /\
  forall aes F clog t db queries seeds pad, let n := Z.of_nat (length records) in
    clog n = Z.log2_up n -> target_ok t -> t_scalar t = true -> holds db records -> queries <> [] -> Forall (fun q => 0 <= q < n)%Z queries ->
    exists c s q0 h state,
      dense_client_create F clog (CfgDense n) true = Ok c /\
      dense_create_plain F clog (CfgDense n) (Some db) = Ok s /\
      dense_create_plain_requests aes c queries seeds pad = Ok (q0, h, state) /\
      dense_handle_plain aes t s (RqPlain q0) = UB.
Proof.
  assert (HM : exists m, Z.of_nat m = 16777217%Z) by (exists (Z.to_nat 16777217); apply Z2Nat.id; discriminate).
  destruct HM as [m HM]. exists (repeat [1] m).
  assert (HL : Z.of_nat (length (repeat [1] m)) = 16777217%Z) by (rewrite repeat_length; assumption).
  assert (HR : records_ok (repeat [1] m)).
  { split.
    - apply Forall_forall. intros r Hr. apply repeat_spec in Hr. subst r. split; [repeat constructor|]. cbn [length]. lia.
    - apply Exists_exists. exists [1]. split; [|discriminate]. destruct m; [discriminate|]. left. reflexivity. }
  split; [exact HR|]. split; [rewrite repeat_length; lia|]. split.
  - destruct (build_ok xa_alloc {| b_values := repeat [1] m; b_total := Z.of_nat (16 * total_blocks (repeat [1] m)); b_built := false |})
      as (db & _ & HI); auto.
    + intros k. apply N.le_refl.
    + cbn [b_total b_values]. assert (HT : total_blocks (repeat [1] m) = m).
      { clear. induction m as [|m IH]; [reflexivity|]. cbn [repeat]. unfold total_blocks, list_sum in *. cbn [map fold_right]. rewrite IH. reflexivity. }
      rewrite HT. lia.
    + exists db. eapply dbi_holds. exact HI.
  - intros aes F clog t db queries seeds pad n Hc HT HS (DC & DS & DM) Hne HQ.
    assert (Hn : n = 16777217%Z) by exact HL.
    assert (HCO : clog_ok clog n) by (split; rewrite Hc; [apply Z.le_log2_log2_up|apply Z.le_refl]).
    assert (Hc31 : clog n = 25%Z) by (rewrite Hc, Hn; reflexivity).
    destruct (dense_create F clog n) as [d Hd]; [lia|lia|assumption|].
    assert (H60 : (clog n < 60)%Z) by lia.
    destruct (queries_expand aes F clog (repeat [1] m) HR ltac:(lia) HCO d Hd queries seeds H60 HQ) as (keys & E0 & E1 & K1 & K2 & K3 & K4 & K5).
    assert (Hk : keys <> []) by (destruct keys, queries; [congruence|discriminate|discriminate|discriminate]).
    eexists {| dc_dpf := d; dc_size := to_int32 n |}, {| ds_dpf := d; ds_db := db |}, _, _, _. split; [|split; [|split]].
    + unfold dense_client_create. destruct (Z.ltb_spec 0 n); [|lia]. cbn [check bind]. rewrite Hd. reflexivity.
    + unfold dense_create_plain. cbn [bind]. destruct (Z.ltb_spec 0 n); [|lia]. cbn [check bind]. rewrite DS, Z.eqb_refl. cbn [check bind].
      rewrite Hd. reflexivity.
    + unfold dense_create_plain_requests. rewrite range_check. cbn [dc_dpf dc_size]. rewrite to_int32_small by lia.
      replace (existsb _ queries) with false.
      2:{ symmetry. apply not_true_is_false. intros HE. apply existsb_exists in HE. destruct HE as (q & Hq & Hr).
          pose proof (proj1 (Forall_forall _ _) HQ q Hq). cbv beta in *. lia. }
      cbn [bind]. rewrite K1. cbn [bind]. reflexivity.
    + unfold dense_handle_plain. cbn [pq_keys ds_dpf ds_db]. rewrite map_length.
      destruct (Nat.eqb_spec (length keys) 0) as [E|]; [destruct keys; [congruence|discriminate]|]. cbn [negb check bind].
      rewrite K3. cbn [bind]. unfold inner_product_with. destruct DC as (views & -> & HV). cbn [bind].
      assert (HN : Forall (fun e => length e = nblocks clog n) E0).
      { clear - K5. induction K5 as [|? ? ? ? ? ? [H _]]; constructor; auto. }
      assert (HE0 : E0 <> []) by (destruct K5; [congruence|discriminate]).
      assert (HZ : Z.of_nat (nblocks clog n) = 33554432%Z) by (rewrite nblocks_Z, Hc31 by lia; reflexivity).
      assert (HLo : longest (repeat [1] m) = 1%nat).
      { assert (m <> 0)%nat by lia. clear - H. destruct m as [|m]; [congruence|]. clear H. induction m as [|m IH]; [reflexivity|].
        change (longest (repeat [1] (S (S m)))) with (Nat.max 1 (longest (repeat [1] (S m)))). rewrite IH. reflexivity. }
      rewrite DM, HLo. change (to_int64 (Z.of_N (N.of_nat 1))) with 1%Z.
      assert (HVl : length views = m) by (rewrite <- (map_length v_data), HV, repeat_length; reflexivity).
      assert (HVo : Forall (fun v => v_data v = [1]) views).
      { apply Forall_forall. intros v Hv. assert (HI : In (v_data v) (repeat [1] m)) by (rewrite <- HV; apply in_map; exact Hv).
        apply repeat_spec in HI. exact HI. }
      rewrite (inner_product_reduces t views E0 (nblocks clog n) 1); auto; try lia.
      * unfold inner_product_hwy. rewrite HS. cbn [orb]. rewrite (no_hwy_overflow t views E0 (nblocks clog n)); auto; try lia.
        eapply Forall_impl; [|exact HVo]. cbv beta. intros v ->. split; [cbn; lia|]. split; [repeat constructor|reflexivity].
      * eapply Forall_impl; [|exact HVo]. cbv beta. intros v ->. split; [cbn; lia|]. split; [repeat constructor|reflexivity].
Qed.
Print Assumptions C54_scalar_refuted.

(** ** C55: clients *)

(** The dense and the cuckoo client return records or an error for every response and state. *)
Theorem C55_dense : forall aes resp state, safe (dense_handle_response aes resp state).
Proof.
  intros aes [l|] state; cbn [dense_handle_response]; [|apply err_safe].
  destruct state; cbn [bind]; try apply err_safe. apply bind_safe; [apply check_safe|]. intros _ _.
  apply bind_safe; [apply check_safe|]. intros _ _. apply masked_safe.
Qed.
Print Assumptions C55_dense.

Lemma dense_response_length : forall aes l seed raw, dense_handle_response aes (Some l) (CsDense seed) = Ok raw -> length raw = length l.
Proof.
  intros aes l seed raw H. cbn [dense_handle_response bind] in H. bind_inv H. bind_inv H. clear Hb Hb0.
  assert (length seed = 16%nat).
  { destruct (Nat.eq_dec (length seed) 16); [assumption|]. rewrite prng_create_iff in H. destruct (Nat.eqb_spec (length seed) 16); [contradiction|discriminate]. }
  rewrite mask_created in H by assumption. injection H as <-.
  assert (HP : forall l' i, length (pads aes seed i (map (@length N) l')) = length l').
  { clear. induction l' as [|x l' IH]; intros i; cbn [map pads length]; [reflexivity|]. rewrite IH. reflexivity. }
  assert (HZ : forall a b : list bytes, length a = length b -> length (xor_lists a b) = length a).
  { unfold xor_lists. clear. induction a as [|x a IH]; intros [|y b] H; cbn [length zip2] in *; try lia. rewrite IH; lia. }
  rewrite HZ; [reflexivity|]. rewrite HP. reflexivity.
Qed.

Theorem C55_cuckoo : forall aes sha F clog params c resp state,
  cuckoo_client_create sha F clog params true = Ok c ->
  safe (cuckoo_handle_response aes c resp state).
Proof.
  intros aes sha F clog params c resp state HC.
  assert (Hk : (0 < length (cc_functions c))%nat).
  { unfold cuckoo_client_create in HC. bind_inv HC. destruct params as [|p|p]; try discriminate.
    bind_inv HC. bind_inv HC. bind_inv HC. bind_inv HC. bind_inv HC. bind_inv HC. injection HC as <-. cbn [cc_functions].
    apply check_ok in Hb1. clear - Hb1 Hb4. unfold create_hash_functions in Hb4. bind_inv Hb4. injection Hb4 as <-. rewrite map_length, seq_length. lia. }
  destruct resp as [l|]; cbn [cuckoo_handle_response]; [|apply err_safe].
  destruct state as [| |seed queries|]; cbn [bind]; try apply err_safe.
  apply bind_safe; [apply check_safe|]. intros [] Hq. apply check_ok, Nat.eqb_eq in Hq.
  apply bind_safe; [apply C55_dense|]. intros raw Hraw. apply dense_response_length in Hraw.
  destruct (Nat.eqb_spec (length (cc_functions c)) 0) as [E|_]; [lia|]. set (k := length (cc_functions c)) in *.
  assert (HD : Nat.div (Nat.div (length raw) k) 2 = length queries).
  { rewrite Hraw, <- Hq. replace (length queries * k * 2)%nat with (length queries * 2 * k)%nat by lia.
    rewrite Nat.div_mul by lia. apply Nat.div_mul. discriminate. }
  rewrite HD. apply mapM_safe. intros i Hi. apply in_seq in Hi.
  unfold at_or_ub at 1. destruct (nth_error queries i) as [q|] eqn:Eq; [|apply nth_error_None in Eq; lia]. cbn [bind].
  unfold cuckoo_answer.
  assert (HJ : forall js result, Forall (fun j => (j < k)%nat) js -> safe (foldM (fun (result : option bytes) j =>
           match result with
           | Some v => Ok (Some v)
           | None =>
               let raw_index := (2 * (k * i + j))%nat in
               key <- at_or_ub raw raw_index ;;
               if is_prefix_padded key q
               then value <- at_or_ub raw (raw_index + 1) ;; Ok (Some value)
               else Ok None
           end) js result)).
  { induction js as [|j js IH]; intros result HJ; cbn [foldM]; [apply ok_safe|]. inversion HJ; subst.
    apply bind_safe; [|intros; apply IH; assumption]. destruct result; [apply ok_safe|]. cbv zeta.
    assert (Hin : (2 * (k * i + j) + 1 < length raw)%nat) by nia. clear - Hin.
    unfold at_or_ub. destruct (nth_error raw (2 * (k * i + j))) eqn:E1; [|apply nth_error_None in E1; lia]. cbn [bind].
    destruct (is_prefix_padded _ _); [|apply ok_safe].
    destruct (nth_error raw (2 * (k * i + j) + 1)) eqn:E2; [|apply nth_error_None in E2; lia]. apply ok_safe. }
  apply HJ. apply Forall_forall. intros j Hj. apply in_seq in Hj. lia.
Qed.
Print Assumptions C55_cuckoo.

(** The simple client: safe if no unmasked bucket has more keys than values. *)
Definition paired (bucket : bytes) : Prop :=
  (length (fst (parse_bucket bucket)) <= length (snd (parse_bucket bucket)))%nat.
Theorem C55_simple_partial : forall aes resp state,
  (forall l seed queries raw, resp = Some l -> state = CsSimple seed queries ->
     dense_handle_response aes (Some l) (CsDense seed) = Ok raw -> Forall paired raw) ->
  safe (simple_handle_response aes resp state).
Proof.
  intros aes [l|] state HP; cbn [simple_handle_response]; [|apply err_safe].
  destruct state as [| | |seed queries]; cbn [bind]; try apply err_safe.
  apply bind_safe; [apply check_safe|]. intros [] Hq. apply check_ok, Nat.eqb_eq in Hq.
  apply bind_safe; [apply C55_dense|]. intros raw Hraw. pose proof (dense_response_length _ _ _ _ Hraw) as HL.
  specialize (HP l seed queries raw eq_refl eq_refl Hraw).
  apply mapM_safe. intros [i r] Hin. cbn [fst snd]. pose proof (in_combine_l _ _ _ _ Hin) as Hi. apply in_combine_r in Hin. apply in_seq in Hi.
  unfold at_or_ub at 1. destruct (nth_error queries i) as [q|] eqn:Eq; [|apply nth_error_None in Eq; lia]. cbn [bind].
  pose proof (proj1 (Forall_forall _ _) HP r Hin) as HR. unfold paired in HR. destruct (parse_bucket r) as [keys values]. cbn [fst snd] in HR.
  assert (HS : forall keys j, (j + length keys <= length values)%nat -> safe (simple_search keys j values q)).
  { clear. induction keys as [|key keys IH]; intros j Hj; cbn [simple_search length] in *; [apply ok_safe|].
    destruct (compare_bytes key q); try (apply IH; lia). unfold at_or_ub.
    destruct (nth_error values j) eqn:E; [apply ok_safe|apply nth_error_None in E; lia]. }
  apply HS. exact HR.
Qed.
Print Assumptions C55_simple_partial.

(** A response with a bucket that has a key but no value: `bucket.values(j)` reads out of bounds.  The
    party that masks the response knows the seed of the pads. *)
Theorem C55_simple_refuted : exists aes F clog sha params c queries seeds pad l h state resp,
  simple_client_create sha F clog params true = Ok c /\
  simple_create_plain_requests aes c queries seeds pad = Ok (l, h, state) /\
  simple_handle_response aes (Some resp) state = UB.
Proof.
  set (resp := xor_lists [encode_field 10 [97]] (pads ex_aes xp_seed 0 [3%nat])).
  assert (H : match simple_client_create xq_sha ex_F xp_clog (PpSimple xr_params) true with
              | Ok c => match simple_create_plain_requests ex_aes c [[97]] xp_seeds xp_seed with
                        | Ok (_, _, state) => match simple_handle_response ex_aes (Some resp) state with UB => true | _ => false end
                        | _ => false end
              | _ => false end = true) by (vm_compute; reflexivity).
  destruct (simple_client_create _ _ _ _ _) as [c| | |] eqn:HC; try discriminate.
  destruct (simple_create_plain_requests _ _ _ _ _) as [[[l h] state]| | |] eqn:HR; try discriminate.
  destruct (simple_handle_response _ _ _) eqn:HU; try discriminate.
  exists ex_aes, ex_F, xp_clog, xq_sha, (PpSimple xr_params), c, [[97]], xp_seeds, xp_seed, l, h, state, resp. auto.
Qed.
Print Assumptions C55_simple_refuted.

(** Servers with five dense records and with the cuckoo database [xq_db], and five requests: one
    the client made, the same with the key of the other party twice, with a wrong number of correction
    words, without a seed, and with no keys. *)
Definition xz_all (f : request -> res response) (fp : N) (key : dkey) : list (option code) :=
  map (fun keys => match f (RqPlain {| pq_keys := keys; pq_fingerprint := fp |}) with Ok _ => None | Err e => Some e | _ => Some INTERNAL end)
    [[key]; [key; {| k_seed := Some 7; k_cws := k_cws key; k_party := 1; k_last := k_last key |}];
     [{| k_seed := k_seed key; k_cws := []; k_party := 0; k_last := k_last key |}];
     [{| k_seed := None; k_cws := k_cws key; k_party := 5; k_last := [] |}]; []].
Example C54_nonvacuous :
  dense_fits xp_clog 5 xp_scalar /\ byte_records xp_five /\ byte_records xq_K /\ byte_records xq_V /\
  role_safe (Leader (fun _ => (true, Ok (Some [[1]; [2]])))) /\ role_safe (Helper (fun m _ => Ok m) [1]) /\
  match (db <- fst (build xa_alloc (fold_left insert xp_five new_builder)) ;;
         s <- dense_create_plain ex_F xp_clog (CfgDense 5) (Some db) ;;
         keys <- dense_keys ex_aes (ds_dpf s) 3 (8, 9) ;; Ok (xz_all (dense_handle_plain ex_aes xt_t s) 0 (fst keys))) with
  | Ok l => l = [None; None; Some INVALID_ARGUMENT; Some INVALID_ARGUMENT; Some INVALID_ARGUMENT]
  | _ => False
  end /\
  match (db <- xq_db ;; s <- cuckoo_create_plain xq_sha ex_F xp_clog (xq_params 4) (Some db) ;;
         keys <- dense_keys ex_aes (cs_dpf s) 3 (8, 9) ;; Ok (xz_all (cuckoo_handle_plain ex_aes xt_t s) (to_uint32 (cs_fingerprint s)) (fst keys))) with
  | Ok l => l = [None; None; Some INVALID_ARGUMENT; Some INVALID_ARGUMENT; Some INVALID_ARGUMENT]
  | _ => False
  end.
Proof.
  split; [split; [reflexivity|right; discriminate]|].
  assert (HB : forall l, forallb (fun r => forallb (fun x => x <? 256) r && (Z.of_nat (length r) <? 2147483648)%Z) l = true -> byte_records l).
  { intros l H. apply Forall_forall. intros r Hr. pose proof (proj1 (forallb_forall _ _) H r Hr) as H1. cbv beta in H1.
    apply andb_true_iff in H1. destruct H1 as [H1 H2]. split; [|lia]. apply Forall_forall. intros x Hx.
    pose proof (proj1 (forallb_forall _ _) H1 x Hx) as H3. cbv beta in H3. lia. }
  split; [apply HB; reflexivity|]. split; [apply HB; reflexivity|]. split; [apply HB; reflexivity|].
  split; [intros req; apply ok_safe|]. split; [intros c i; apply ok_safe|].
  split; vm_compute; reflexivity.
Qed.

(** Responses nobody made: of the right number of elements but arbitrary lengths and contents. *)
Example C55_nonvacuous :
  match (c <- cuckoo_client_create xq_sha ex_F xp_clog (PpCuckoo (xq_params 4)) true ;;
         '(_, _, state) <- cuckoo_create_plain_requests ex_aes c [[97; 98]; [99]] xp_seeds xp_seed ;;
         Ok (state, cuckoo_handle_response ex_aes c (Some [[1]; []; repeat 3 20; [4]; []; [5; 6]; [7]; [8]]) state)) with
  | Ok (state, Ok l) => length l = 2%nat /\ nth 1 l None <> None /\
      simple_handle_response ex_aes (Some [[1; 2]; [3]]) (CsSimple xp_seed [[97]; [98]]) = Ok [None; None] /\
      (forall raw, dense_handle_response ex_aes (Some [[1; 2]; [3]]) (CsDense xp_seed) = Ok raw -> Forall paired raw) /\
      simple_handle_response ex_aes (Some [[1; 2]; [3]]) state = Err INVALID_ARGUMENT
  | _ => False
  end.
Proof.
  vm_compute. split; [reflexivity|]. split; [discriminate|]. split; [reflexivity|]. split; [|reflexivity].
  intros raw H. injection H as <-. repeat constructor.
Qed.
