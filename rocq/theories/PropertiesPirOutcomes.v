(** C72: every outcome of HandleRequest, for all requests and keys. *)
From Coq Require Import List NArith ZArith QArith Lia Bool ZifyBool ZifyNat ZifyN.
From Verif Require Import Base ListUtil ValueTypesModel ValueTypesSpec ValueTypesProofs TypeProofs DpfModel DpfWf DpfSpec DpfEval DpfCtx DpfReach
  DpfSafe DpfFacts DpfExamples PropertiesDpf PropertiesDpfApi PirDbModel PirSpec PirDbProofs PirIpProofs PirBuildProofs PirModel PirProtoSpec PirProtoProofs
  PirDenseProofs PropertiesPir PropertiesPirProto HashModel SparseModel SparseSpec SparseProofs SparseDbProofs PropertiesSparse PropertiesPirSafety
  PropertiesTypeEq PropertiesDpfExact PropertiesIpExact.
Import ListNotations.
Ltac Zify.zify_post_hook ::= Z.div_mod_to_equations.
Open Scope N_scope.

(** ** Specification *)

(** EvaluateAt accepts the key. *)
Definition usable (aes : N -> N -> N) (d : dpf) (key : dkey) : Prop :=
  exists v, evaluate_at aes d block_type key 0 [0] = Ok v.
(** The blocks of selection bits that a key stands for: what EvaluateAt returns at 0, 1, ... *)
Definition selects (aes : N -> N -> N) (d : dpf) (blocks : N) (key : dkey) (e : list N) : Prop :=
  N.of_nat (length e) = blocks /\
  forall i x, nth_error e i = Some x -> evaluate_at aes d block_type key 0 [N.of_nat i] = Ok [VNum x].
(** The XOR of the records that are selected, as long as the longest record ([wrapped_xor] is
    [selected_xor] for up to 2^25 blocks, [answer_selected] below). *)
Definition answer (records : list bytes) (e : list N) : bytes := wrapped_xor records (longest records) e.
Definition all_empty (records : list bytes) : Prop := Forall (fun r => r = []) records.
(** The inner product without vector instructions overflows an int for DPFs of these sizes. *)
Definition overflows (clog : Z -> Z) (n : Z) (t : target) : Prop :=
  t_scalar t || Nat.ltb (t_log_lanes t) 4 = true /\ (24 < clog n < 31)%Z.

(** ** The expansion of any key *)

Lemma wt_num : forall v, wt block_type v = true -> v = VNum (num_of v).
Proof. intros [x|l] H; [reflexivity|discriminate]. Qed.

Lemma expand_exact : forall aes F clog n d key, (0 < n)%Z -> (n < 9223372036854775808)%Z -> clog_ok clog n ->
  create_incremental F (dense_params clog n) = Ok d -> (clog n < 60)%Z ->
  match dense_expand aes d key with
  | Ok e => usable aes d key /\ selects aes d (2 ^ Z.to_N (clog n)) key e
  | Err e => e = INVALID_ARGUMENT /\ ~ usable aes d key
  | _ => False
  end.
Proof.
  intros aes F clog n d key Hn Hn63 HL Hd Hc. pose proof (clog_range clog n Hn Hn63 HL) as HR.
  assert (HC : created F (dense_params clog n) [] d). { exists d. split; [exact Hd|]. split; [constructor|reflexivity]. }
  destruct (created_wf _ _ _ _ HC) as (W & HLen & _). cbn [length dense_params] in HLen.
  assert (HT : level_has (dense_params clog n) 0 block_type) by apply dense_has.
  assert (HTy : forall k, (k < length (dense_params clog n))%nat -> exists T, level_has (dense_params clog n) k T).
  { intros k Hk. cbn [length dense_params] in Hk. assert (k = 0)%nat as -> by lia. eauto. }
  assert (Hroom : roomy (dense_params clog n) d block_type) by (eapply shape_roomy; [exact HC|reflexivity]).
  assert (HEf : expansion_fits d None 0 []).
  { split; [left; reflexivity|]. cbn [length Nat.max]. rewrite Nat.sub_0_r.
    pose proof (wf_h2t_ld d W 0 ltac:(unfold nlevels; lia)) as H1.
    destruct (nth_error (d_params d) 0) as [p|] eqn:Ep; [|apply nth_error_None in Ep; lia].
    pose proof (wf_ld_z d W 0 p Ep) as [_ H2]. unfold h2t in H1.
    assert (p_ld p = clog n). { rewrite (create_params _ _ _ Hd) in Ep. injection Ep as <-. apply default_sec_ld. }
    rewrite N.mul_1_l. apply N.pow_lt_mono_r; lia. }
  assert (HE : forall c, evaluate_next aes d block_type [] c = evaluate_until aes d block_type 0 [] c) by reflexivity.
  assert (Hld : level_ld (dense_params clog n) 0 = Z.to_N (clog n)) by reflexivity.
  unfold dense_expand. pose proof (validate_dpf_key_ooi d key W) as HV.
  unfold create_evaluation_context. destruct (validate_dpf_key d key) as [[]|e| |] eqn:EV; cbn [ok_or_invalid] in HV; try contradiction; cbn [bind].
  2:{ split; [exact HV|]. intros (v & Hv). unfold evaluate_at in Hv. bind_inv Hv. unfold evaluate_at_checks in Hb. bind_inv Hb. bind_inv Hb. bind_inv Hb. congruence. }
  set (c := Build_ectx _ _ _ _ _).
  assert (EC : create_evaluation_context d key = Ok c) by (unfold create_evaluation_context; rewrite EV; reflexivity).
  clearbody c. rewrite HE.
  pose proof (C04_until_is_at aes F (dense_params clog n) [] d key c [Until 0 block_type []] HC HTy EC) as H4.
  assert (HX : fst (evaluate_until aes d block_type 0 [] c) = evaluate_at aes d block_type key 0 (outputs (dense_params clog n) None 0 [])).
  { cbn [run_calls at_results run_call call_level call_type call_prefixes] in H4. change (Z.of_nat 0) with 0%Z in H4. destruct (evaluate_until aes d block_type 0 [] c) as [r c'] eqn:EU.
    cbn [fst]. assert (H5 : [r] = [evaluate_at aes d block_type key 0 (outputs (dense_params clog n) None 0 [])]); [|apply (f_equal (hd UB)) in H5; exact H5].
    apply H4; clear H4.
    - constructor; cbn [call_level call_type call_prefixes]; auto; try (unfold gap; rewrite ?Hld; lia); try constructor.
    - constructor; [exact Hroom|constructor]. }
  assert (Hone : elements_per_block block_type = 1%nat) by reflexivity.
  assert (Hbytes : (bytes_consumed block_type <= 16 * nth 0 (d_blocks d) 0)%nat) by (apply Hroom, HT).
  assert (Hall : forall points, points <> [] -> Forall (fun x => x < 2 ^ level_ld (dense_params clog n) 0) points ->
     match evaluate_at aes d block_type key 0 points with
     | Ok r => readable (dense_params clog n) d block_type key 0 /\ length r = length points /\ Forall (fun v => wt block_type v = true) r
     | Err e => e = INVALID_ARGUMENT /\ ~ readable (dense_params clog n) d block_type key 0
     | _ => False end).
  { intros points Hne Hin.
    pose proof (C53_at_exact aes F (dense_params clog n) [] d key 0 block_type points HC EV ltac:(cbn; lia) eq_refl Hne Hin) as H5.
    change (Z.of_nat 0) with 0%Z in H5. destruct (evaluate_at aes d block_type key 0 points).
    - tauto.
    - exact H5.
    - destruct H5 as (_ & H5). lia.
    - destruct H5 as (_ & _ & H5 & _). rewrite Hone in H5. lia. }
  assert (Houts : forall x, In x (outputs (dense_params clog n) None 0 []) -> x < 2 ^ level_ld (dense_params clog n) 0).
  { intros x Hx. unfold outputs, extensions in Hx. apply in_map_iff in Hx. destruct Hx as (i & <- & Hi). apply in_seq in Hi. lia. }
  assert (Hne : outputs (dense_params clog n) None 0 [] <> []).
  { unfold outputs, extensions. intros E. apply (f_equal (@length N)) in E. rewrite map_length, seq_length in E. cbn [length] in E.
    pose proof (pow2_pos (level_ld (dense_params clog n) 0)). lia. }
  pose proof (Hall _ Hne (proj2 (Forall_forall _ _) Houts)) as HA. rewrite <- HX in HA.
  assert (H0 : Forall (fun x => x < 2 ^ level_ld (dense_params clog n) 0) [0]) by (constructor; [apply pow2_pos|constructor]).
  pose proof (Hall [0] ltac:(discriminate) H0) as HA0.
  destruct (evaluate_until aes d block_type 0 [] c) as [r c'] eqn:EU. cbn [fst] in *.
  destruct r as [r|e| |]; cbn [bind]; try contradiction.
  - destruct HA as (Hr & _ & Hw). split.
    + unfold usable. destruct (evaluate_at aes d block_type key 0 [0]) as [v| | |]; [eauto| |contradiction|contradiction]. tauto.
    + pose proof (C06_output_order aes F (dense_params clog n) [] d key c None None block_type 0 [] r c' HC HTy) as H6.
      destruct H6 as (_ & H6 & H7); auto.
      { apply after_create. exact EC. }
      change (Z.to_nat 0) with 0%nat in H6. rewrite Hld in H6.
      split; [rewrite map_length; lia|]. intros i x Hi. rewrite nth_error_map in Hi.
      destruct (nth_error r i) as [v|] eqn:Ev; [|discriminate]. injection Hi as <-. rewrite (H7 i v Ev). do 2 f_equal.
      apply wt_num. rewrite Forall_forall in Hw. apply Hw. eapply nth_error_In, Ev.
  - destruct HA as (-> & Hr). split; [reflexivity|]. intros (v & Hv). rewrite Hv in HA0. tauto.
Qed.

Lemma expand_all_exact : forall aes F clog n d keys, (0 < n)%Z -> (n < 9223372036854775808)%Z -> clog_ok clog n ->
  create_incremental F (dense_params clog n) = Ok d -> (clog n < 60)%Z ->
  match mapM (dense_expand aes d) keys with
  | Ok E => Forall2 (selects aes d (2 ^ Z.to_N (clog n))) keys E
  | Err e => e = INVALID_ARGUMENT /\ Exists (fun key => ~ usable aes d key) keys
  | _ => False
  end.
Proof.
  intros aes F clog n d keys Hn Hn63 HL Hd Hc. induction keys as [|k keys IH]; cbn [mapM]; [constructor|].
  pose proof (expand_exact aes F clog n d k Hn Hn63 HL Hd Hc) as Hk.
  destruct (dense_expand aes d k); cbn [bind]; try contradiction.
  - destruct (mapM (dense_expand aes d) keys); cbn [bind]; try contradiction.
    + constructor; tauto.
    + destruct IH as [-> IH]. split; [reflexivity|]. right. exact IH.
  - destruct Hk as [-> Hk]. split; [reflexivity|]. left. exact Hk.
Qed.

(** ** The inner products with any selections *)
Lemma all_empty_longest : forall records, longest records = 0%nat <-> all_empty records.
Proof.
  induction records as [|r l IH]; [split; [constructor|reflexivity]|].
  change (longest (r :: l)) with (Nat.max (length r) (longest l)). split; intros H.
  - constructor; [destruct r; [reflexivity|cbn [length] in H; lia]|]. apply IH. lia.
  - inversion H as [|? ? H1 H2]. subst. apply IH in H2. rewrite H2. reflexivity.
Qed.

Lemma product_exact : forall clog n t d records selections, (0 < n < 2147483648)%Z -> clog_ok clog n -> target_ok t ->
  holds d records -> byte_records records -> (Z.of_nat (length records) <= n)%Z ->
  selections <> [] -> Forall (fun e => length e = nblocks clog n) selections ->
  match inner_product_with t d selections with
  | Ok r => r = map (answer records) selections /\ ~ all_empty records /\ (clog n < 31)%Z /\ ~ overflows clog n t
  | Err e => e = INVALID_ARGUMENT /\ (all_empty records \/ (31 <= clog n)%Z)
  | UB => ~ all_empty records /\ overflows clog n t
  | Crash => False
  end.
Proof.
  intros clog n t d records selections Hn HL HT HH HB Hlen Hne HE.
  assert (Hn63 : (n < 9223372036854775808)%Z) by lia. assert (Hpos : (0 < n)%Z) by lia.
  pose proof (clog_range clog n Hpos Hn63 HL) as HCr. pose proof (records_cover clog n Hpos Hn63 HL) as Hcov.
  pose proof (nblocks_Z clog n (proj1 HCr)) as HnbZ.
  assert (Hc31 : (clog n <= 31)%Z).
  { destruct HL as [_ HL]. apply (Z.le_trans _ _ _ HL). apply log2_small; try lia; reflexivity. }
  unfold inner_product_with. destruct HH as ((views & EC & EV) & _ & HM). rewrite EC. cbn [bind].
  assert (Hmx : (Z.of_nat (longest records) < 2147483648)%Z).
  { clear - HB. induction HB as [|r l [_ H] _ IH]; [reflexivity|]. change (longest (r :: l)) with (Nat.max (length r) (longest l)). lia. }
  assert (Hlv : length views = length records) by (rewrite <- EV, map_length; reflexivity).
  rewrite HM. replace (to_int64 (Z.of_N (N.of_nat (longest records)))) with (Z.of_nat (longest records)) by (unfold to_int64; lia).
  destruct (Z.le_gt_cases 31 (clog n)) as [Hbig|Hsmall].
  { rewrite (ip_too_long t views selections (nblocks clog n)); auto.
    rewrite HnbZ. replace (clog n) with 31%Z by lia. split; [discriminate|reflexivity]. }
  assert (Hnb31 : (Z.of_nat (nblocks clog n) < 2147483648)%Z).
  { rewrite HnbZ. change 2147483648%Z with (2 ^ 31)%Z. apply Z.pow_lt_mono_r; lia. }
  destruct (Nat.eq_dec (longest records) 0) as [E0|E0].
  - rewrite C30_rejects; [split; [reflexivity|left; apply all_empty_longest; exact E0]|exact Hne| |].
    + destruct selections as [|e rest]; [congruence|]. inversion HE; subst. cbn [hd]. rewrite H1. exact Hnb31.
    + right. right. left. rewrite E0. reflexivity.
  - rewrite (C30_exact t views selections (nblocks clog n)); auto; try lia.
    + destruct (Z.leb_spec 2147483648 (Z.of_nat (nblocks clog n))); [lia|].
      assert (H24 : (16777216 <? Z.of_nat (nblocks clog n))%Z = true <-> (24 < clog n)%Z).
      { rewrite HnbZ, Z.ltb_lt. change 16777216%Z with (2 ^ 24)%Z. split; intros HX.
        - apply (Z.pow_lt_mono_r_iff 2); lia.
        - apply Z.pow_lt_mono_r; lia. }
      assert (HNE : ~ all_empty records) by (rewrite <- all_empty_longest; exact E0).
      destruct ((t_scalar t || Nat.ltb (t_log_lanes t) 4) && (16777216 <? Z.of_nat (nblocks clog n))%Z) eqn:EU.
      * apply andb_true_iff in EU. destruct EU as [E1 E2]. apply H24 in E2. unfold overflows. repeat split; auto.
      * rewrite EV, Nat2Z.id. repeat split; auto. intros [HO HO2]. rewrite HO in EU. cbn [andb] in EU. rewrite (proj2 H24) in EU by lia. discriminate.
    + apply Forall_forall. intros v Hv. assert (Hin : In (v_data v) records) by (rewrite <- EV; apply in_map; assumption).
      pose proof (proj1 (Forall_forall _ _) HB _ Hin) as [H1 H2]. pose proof (longest_bound _ _ Hin). repeat split; [exact H1|lia|lia].
Qed.
Lemma answer_selected : forall clog n records e, (0 < n < 2147483648)%Z -> clog_ok clog n -> (clog n <= 25)%Z ->
  (Z.of_nat (length records) <= n)%Z -> N.of_nat (length e) = 2 ^ Z.to_N (clog n) ->
  answer records e = selected_xor records (longest records) e.
Proof.
  intros clog n records e Hn HL H25 Hlen He. apply wrapped_small; [lia|].
  pose proof (clog_range clog n ltac:(lia) ltac:(lia) HL) as HR.
  assert (2 ^ Z.to_N (clog n) <= 2 ^ 25) by (apply N.pow_le_mono_r; lia). change (2 ^ 25) with 33554432 in *. lia.
Qed.

Lemma selects_lengths : forall aes clog d n keys E, Forall2 (selects aes d (2 ^ Z.to_N (clog n))) keys E ->
  Forall (fun e => length e = nblocks clog n) E /\ length E = length keys.
Proof.
  intros aes clog d n keys E H. induction H as [|k e keys E [H1 _] _ [IH1 IH2]]; [split; [constructor|reflexivity]|].
  split; [constructor; [unfold nblocks; lia|exact IH1]|cbn [length]; lia].
Qed.

(** ** C72: plain servers *)
Theorem C72_dense : forall aes F clog n t records db s req,
  (0 < n < 2147483648)%Z -> clog_ok clog n -> target_ok t ->
  byte_records records -> holds db records ->
  dense_create_plain F clog (CfgDense n) (Some db) = Ok s ->
  match dense_handle_plain aes t s req with
  | Ok r => exists plain es, req = RqPlain plain /\ pq_keys plain <> [] /\
      Forall2 (selects aes (ds_dpf s) (2 ^ Z.to_N (clog n))) (pq_keys plain) es /\
      r = Some (map (answer records) es) /\ ~ all_empty records /\ (clog n < 31)%Z /\ ~ overflows clog n t
  | Err e => e = INVALID_ARGUMENT /\
      forall plain, req = RqPlain plain ->
        pq_keys plain = [] \/ Exists (fun key => ~ usable aes (ds_dpf s) key) (pq_keys plain) \/ all_empty records \/ (31 <= clog n)%Z
  | UB => exists plain es, req = RqPlain plain /\ pq_keys plain <> [] /\
      Forall2 (selects aes (ds_dpf s) (2 ^ Z.to_N (clog n))) (pq_keys plain) es /\ ~ all_empty records /\ overflows clog n t
  | Crash => False
  end.
Proof.
  intros aes F clog n t records db s req Hn HL HT HB HH HS.
  unfold dense_create_plain in HS. bind_inv HS. injection Hb as <-.
  bind_inv HS. bind_inv HS. apply check_ok in Hb0. bind_inv HS. injection HS as <-. rename a1 into d. rename Hb1 into Hd.
  assert (Hc : (clog n < 60)%Z).
  { destruct HL as [_ HL]. apply (Z.le_lt_trans _ _ _ HL). apply (Z.le_lt_trans _ 31); [|reflexivity]. apply log2_small; try lia; reflexivity. }
  unfold dense_handle_plain. destruct req as [| |plain| |]; try (split; [reflexivity|discriminate]). cbn [ds_dpf ds_db].
  destruct (Nat.eqb_spec (length (pq_keys plain)) 0) as [E0|E0]; cbn [negb check bind].
  { split; [reflexivity|]. intros p Hp. injection Hp as <-. left. destruct (pq_keys plain); [reflexivity|discriminate]. }
  assert (Hne : pq_keys plain <> []) by (intros E; rewrite E in E0; auto).
  pose proof (expand_all_exact aes F clog n d (pq_keys plain) ltac:(lia) ltac:(lia) HL Hd Hc) as HE.
  destruct (mapM (dense_expand aes d) (pq_keys plain)) as [E|e| |]; cbn [bind]; try contradiction.
  2:{ destruct HE as [-> HE]. split; [reflexivity|]. intros p Hp. injection Hp as <-. auto. }
  destruct (selects_lengths _ _ _ _ _ _ HE) as [HE1 HE2].
  assert (HEne : E <> []) by (intros ->; cbn in HE2; lia).
  pose proof (product_exact clog n t db records E Hn HL HT HH HB) as HP.
  destruct HH as (HH1 & HH2 & HH3). specialize (HP ltac:(lia) HEne HE1).
  destruct (inner_product_with t db E) as [r|e| |]; cbn [bind]; try contradiction.
  - destruct HP as (-> & HP). exists plain, E. do 3 (split; [auto|]). split; [destruct E; [congruence|]; reflexivity|exact HP].
  - destruct HP as [-> HP]. split; [reflexivity|]. intros p Hp. injection Hp as <-. tauto.
  - exists plain, E. tauto.
Qed.
Print Assumptions C72_dense.

(** The fingerprint of a request is accepted: it carries none (0), or that of the server's seed. *)
Definition fingerprint_accepted (sha : bytes -> bytes) (seed : bytes) (plain : plain_request) : Prop :=
  pq_fingerprint plain = 0 \/ pq_fingerprint plain = seed_fingerprint sha seed.
(** Why a sparse server rejects a request before computing the answer. *)
Definition sparse_rejects (aes : N -> N -> N) (sha : bytes -> bytes) (d : dpf) (seed : bytes) (plain : plain_request) : Prop :=
  pq_keys plain = [] \/ ~ fingerprint_accepted sha seed plain \/ Exists (fun key => ~ usable aes d key) (pq_keys plain).

Lemma selections_exact : forall aes F clog sha n d seed fp req, (0 < n)%Z -> (n < 9223372036854775808)%Z -> clog_ok clog n ->
  create_incremental F (dense_params clog n) = Ok d -> (clog n < 60)%Z -> to_uint32 fp = seed_fingerprint sha seed ->
  match sparse_selections aes d fp req with
  | Ok E => exists plain, req = RqPlain plain /\ E <> [] /\ fingerprint_accepted sha seed plain /\
      Forall2 (selects aes d (2 ^ Z.to_N (clog n))) (pq_keys plain) E
  | Err e => e = INVALID_ARGUMENT /\ forall plain, req = RqPlain plain -> sparse_rejects aes sha d seed plain
  | _ => False
  end.
Proof.
  intros aes F clog sha n d seed fp req Hn Hn63 HL Hd Hc Hfp.
  unfold sparse_selections. destruct req as [| |plain| |]; try (split; [reflexivity|discriminate]).
  destruct (Nat.eqb_spec (length (pq_keys plain)) 0) as [E0|E0]; cbn [negb check bind].
  { split; [reflexivity|]. intros p Hp. injection Hp as <-. left. destruct (pq_keys plain); [reflexivity|discriminate]. }
  rewrite Hfp. destruct (negb (pq_fingerprint plain =? 0) && negb (pq_fingerprint plain =? seed_fingerprint sha seed)) eqn:EF; cbn [negb check bind].
  { split; [reflexivity|]. intros p Hp. injection Hp as <-. right. left. unfold fingerprint_accepted.
    apply andb_true_iff in EF. destruct EF as [H1 H2]. apply negb_true_iff in H1, H2. apply N.eqb_neq in H1, H2. tauto. }
  pose proof (expand_all_exact aes F clog n d (pq_keys plain) Hn Hn63 HL Hd Hc) as HE.
  destruct (mapM (dense_expand aes d) (pq_keys plain)) as [E|e| |]; try contradiction.
  - exists plain. split; [reflexivity|]. split; [intros ->; inversion HE as [HK|]; rewrite <- HK in E0; auto|]. split; [|exact HE].
    unfold fingerprint_accepted. apply andb_false_iff in EF. rewrite !negb_false_iff, !N.eqb_eq in EF. exact EF.
  - destruct HE as [-> HE]. split; [reflexivity|]. intros p Hp. injection Hp as <-. right. right. exact HE.
Qed.

Theorem C72_cuckoo : forall aes F clog sha t p K V db s req,
  (forall x, length (sha x) = 32%nat) ->
  (cp_buckets p < 2147483648)%Z -> clog_ok clog (cp_buckets p) -> target_ok t ->
  byte_records K -> byte_records V -> holds (cd_keys db) K -> holds (cd_values db) V ->
  length V = length K -> cd_bits db = length K ->
  cuckoo_create_plain sha F clog p (Some db) = Ok s ->
  match cuckoo_handle_plain aes t s req with
  | Ok r => exists plain es, req = RqPlain plain /\ fingerprint_accepted sha (hf_seed (cp_hash p)) plain /\ es <> [] /\
      Forall2 (selects aes (cs_dpf s) (2 ^ Z.to_N (clog (cp_buckets p)))) (pq_keys plain) es /\
      r = Some (flat_map (fun e => [answer K e; answer V e]) es) /\
      ~ all_empty K /\ ~ all_empty V /\ (clog (cp_buckets p) < 31)%Z /\ ~ overflows clog (cp_buckets p) t
  | Err e => e = INVALID_ARGUMENT /\
      forall plain, req = RqPlain plain ->
        sparse_rejects aes sha (cs_dpf s) (hf_seed (cp_hash p)) plain \/ all_empty K \/ all_empty V \/ (31 <= clog (cp_buckets p))%Z
  | UB => exists plain es, req = RqPlain plain /\ fingerprint_accepted sha (hf_seed (cp_hash p)) plain /\ es <> [] /\
      Forall2 (selects aes (cs_dpf s) (2 ^ Z.to_N (clog (cp_buckets p)))) (pq_keys plain) es /\
      ~ all_empty K /\ overflows clog (cp_buckets p) t
  | Crash => False
  end.
Proof.
  intros aes F clog sha t p K V db s req Hsha Hn HL HT HBK HBV HK HV HVK Hbits HS.
  pose proof (cuckoo_server_fingerprint _ _ _ _ _ _ Hsha HS) as Hfp.
  unfold cuckoo_create_plain in HS.
  bind_inv HS. apply check_ok in Hb. bind_inv HS. bind_inv HS. bind_inv HS. injection Hb2 as <-. bind_inv HS. apply check_ok in Hb2. bind_inv HS. bind_inv HS. injection HS as <-.
  assert (Hc : (clog (cp_buckets p) < 60)%Z).
  { destruct HL as [_ HL]. apply (Z.le_lt_trans _ _ _ HL). apply (Z.le_lt_trans _ 31); [|reflexivity]. apply log2_small; try lia; reflexivity. }
  unfold cuckoo_handle_plain. cbn [cs_dpf cs_db cs_fingerprint] in *. rename a3 into d. rename Hb3 into Hd.
  pose proof (selections_exact aes F clog sha (cp_buckets p) d (hf_seed (cp_hash p)) a4 req ltac:(lia) ltac:(lia) HL Hd Hc Hfp) as HE.
  destruct (sparse_selections aes d a4 req) as [E|e| |]; cbn [bind]; try contradiction.
  2:{ destruct HE as [-> HE]. split; [reflexivity|]. intros q Hq. left. apply HE, Hq. }
  destruct HE as (plain & -> & Hne & HA & HE). destruct (selects_lengths _ _ _ _ _ _ HE) as [HE1 HE2].
  pose proof (product_exact clog (cp_buckets p) t (cd_keys db) K E ltac:(lia) HL HT HK HBK ltac:(lia) Hne HE1) as HPK.
  pose proof (product_exact clog (cp_buckets p) t (cd_values db) V E ltac:(lia) HL HT HV HBV ltac:(lia) Hne HE1) as HPV.
  unfold cuckoo_inner_product.
  destruct (inner_product_with t (cd_keys db) E) as [rk|e| |]; cbn [bind]; try contradiction.
  2:{ destruct HPK as [-> HPK]. split; [reflexivity|]. tauto. }
  2:{ exists plain, E. tauto. }
  destruct (inner_product_with t (cd_values db) E) as [rv|e| |]; cbn [bind]; try contradiction.
  2:{ destruct HPV as [-> HPV]. split; [reflexivity|]. tauto. }
  2:{ tauto. }
  destruct HPK as [-> HPK], HPV as [-> HPV]. rewrite !map_length, Nat.eqb_refl. cbn [andb check bind].
  exists plain, E. do 4 (split; [auto|]). split; [|tauto]. f_equal. clear. induction E as [|e E IH]; [reflexivity|].
  cbn [map combine flat_map app fst snd]. rewrite IH. reflexivity.
Qed.
Print Assumptions C72_cuckoo.

Theorem C72_simple : forall aes F clog sha t p R db s req,
  (forall x, length (sha x) = 32%nat) ->
  (sp_buckets p < 2147483648)%Z -> clog_ok clog (sp_buckets p) -> target_ok t ->
  byte_records R -> holds (sd_dense db) R -> sd_bits db = Z.of_nat (length R) ->
  simple_create_plain sha F clog p (Some db) = Ok s ->
  match simple_handle_plain aes t s req with
  | Ok r => exists plain es, req = RqPlain plain /\ fingerprint_accepted sha (hf_seed (sp_hash p)) plain /\ es <> [] /\
      Forall2 (selects aes (ss_dpf s) (2 ^ Z.to_N (clog (sp_buckets p)))) (pq_keys plain) es /\
      r = Some (map (answer R) es) /\ ~ all_empty R /\ (clog (sp_buckets p) < 31)%Z /\ ~ overflows clog (sp_buckets p) t
  | Err e => e = INVALID_ARGUMENT /\
      forall plain, req = RqPlain plain ->
        sparse_rejects aes sha (ss_dpf s) (hf_seed (sp_hash p)) plain \/ all_empty R \/ (31 <= clog (sp_buckets p))%Z
  | UB => exists plain es, req = RqPlain plain /\ fingerprint_accepted sha (hf_seed (sp_hash p)) plain /\ es <> [] /\
      Forall2 (selects aes (ss_dpf s) (2 ^ Z.to_N (clog (sp_buckets p)))) (pq_keys plain) es /\
      ~ all_empty R /\ overflows clog (sp_buckets p) t
  | Crash => False
  end.
Proof.
  intros aes F clog sha t p R db s req Hsha Hn HL HT HBR HR Hbits HS.
  pose proof (simple_server_fingerprint _ _ _ _ _ _ Hsha HS) as Hfp.
  unfold simple_create_plain in HS.
  bind_inv HS. apply check_ok in Hb. bind_inv HS. bind_inv HS. injection Hb1 as <-. bind_inv HS. apply check_ok in Hb1. bind_inv HS. bind_inv HS. injection HS as <-.
  assert (Hc : (clog (sp_buckets p) < 60)%Z).
  { destruct HL as [_ HL]. apply (Z.le_lt_trans _ _ _ HL). apply (Z.le_lt_trans _ 31); [|reflexivity]. apply log2_small; try lia; reflexivity. }
  unfold simple_handle_plain. cbn [ss_dpf ss_db ss_fingerprint] in *. rename a2 into d. rename Hb2 into Hd.
  pose proof (selections_exact aes F clog sha (sp_buckets p) d (hf_seed (sp_hash p)) a3 req ltac:(lia) ltac:(lia) HL Hd Hc Hfp) as HE.
  destruct (sparse_selections aes d a3 req) as [E|e| |]; cbn [bind]; try contradiction.
  2:{ destruct HE as [-> HE]. split; [reflexivity|]. intros q Hq. left. apply HE, Hq. }
  destruct HE as (plain & -> & Hne & HA & HE). destruct (selects_lengths _ _ _ _ _ _ HE) as [HE1 HE2].
  pose proof (product_exact clog (sp_buckets p) t (sd_dense db) R E ltac:(lia) HL HT HR HBR ltac:(lia) Hne HE1) as HPR.
  destruct (inner_product_with t (sd_dense db) E) as [r|e| |]; cbn [bind]; try contradiction.
  2:{ destruct HPR as [-> HPR]. split; [reflexivity|]. tauto. }
  2:{ exists plain, E. tauto. }
  destruct HPR as [-> HPR]. exists plain, E. tauto.
Qed.
Print Assumptions C72_simple.

(** ** C72: the other roles *)

(** The plain request inside a decrypted helper request. *)
Definition inner_plain (inner : helper_request) : plain_request :=
  match hq_plain inner with Some p => p | None => default_plain end.
(** A Helper: the first failure is reported, in the order decryption, parsing, handling of the plain
    request, size of the seed. *)
Theorem C72_helper : forall aes parse handle_plain decrypt context req,
  (forall c i, safe (decrypt c i)) -> (forall q, safe (handle_plain q)) ->
  match handle_request aes parse handle_plain (Helper decrypt context) req with
  | Ok r => exists e m inner lr, req = RqHelper e /\ decrypt e context = Ok m /\ parse m = Some inner /\
      handle_plain (RqPlain (inner_plain inner)) = Ok lr /\ length (hq_seed inner) = 16%nat /\
      r = match lr with None => None | Some l => Some (xor_lists l (pads aes (hq_seed inner) 0 (map (@length N) l))) end
  | Err err =>
      ((forall e, req <> RqHelper e) /\ err = INVALID_ARGUMENT) \/
      exists e, req = RqHelper e /\
        (decrypt e context = Err err \/
         exists m, decrypt e context = Ok m /\
           ((parse m = None /\ err = INVALID_ARGUMENT) \/
            exists inner, parse m = Some inner /\
              (handle_plain (RqPlain (inner_plain inner)) = Err err \/
               ((exists lr, handle_plain (RqPlain (inner_plain inner)) = Ok lr) /\ length (hq_seed inner) <> 16%nat /\ err = INVALID_ARGUMENT))))
  | _ => False
  end.
Proof.
  intros aes parse hp decrypt context req HD HP. cbn [handle_request]. unfold handle_helper_request.
  destruct req as [| | | |e]; try (left; split; [discriminate|reflexivity]).
  pose proof (HD e context) as [HD1 HD2]. destruct (decrypt e context) as [m|err| |] eqn:ED; cbn [bind]; try congruence.
  2:{ right. exists e. auto. }
  destruct (parse m) as [inner|] eqn:EP; cbn [bind].
  2:{ right. exists e. split; [reflexivity|]. right. exists m. auto. }
  fold (inner_plain inner). cbv zeta. pose proof (HP (RqPlain (inner_plain inner))) as [HP1 HP2].
  destruct (hp (RqPlain (inner_plain inner))) as [lr|err| |] eqn:EH; cbn [bind]; try congruence.
  2:{ right. exists e. split; [reflexivity|]. right. exists m. split; [exact ED|]. right. exists inner. auto. }
  destruct (Nat.eq_dec (length (hq_seed inner)) 16) as [ES|ES].
  - destruct lr as [l|].
    + pose proof (mask_created aes (hq_seed inner) l ES) as HM.
      destruct (prng_create (hq_seed inner)) as [p|err| |]; cbn [bind] in *; try discriminate.
      rewrite HM. cbn [bind]. exists e, m, inner, (Some l). repeat split; auto.
    + rewrite prng_create_iff, ES. cbn [Nat.eqb bind]. exists e, m, inner, None. repeat split; auto.
  - rewrite prng_create_iff. destruct (Nat.eqb_spec (length (hq_seed inner)) 16); [contradiction|]. cbn [bind].
    right. exists e. split; [reflexivity|]. right. exists m. split; [exact ED|]. right. exists inner. split; [exact EP|]. right. eauto.
Qed.
Print Assumptions C72_helper.

(** What a request is addressed to. *)
Definition addressed_to (req : request) (r : role) : Prop :=
  match req, r with
  | RqPlain _, Plain | RqLeader _ _, Leader _ | RqHelper _, Helper _ _ => True
  | _, _ => False
  end.
(** Requests for another role are rejected, whatever the sender, the decrypter and the database. *)
Theorem C72_other_role : forall aes parse r req, ~ addressed_to req r ->
  (forall t s, handle_request aes parse (dense_handle_plain aes t s) r req = Err INVALID_ARGUMENT) /\
  (forall t s, handle_request aes parse (cuckoo_handle_plain aes t s) r req = Err INVALID_ARGUMENT) /\
  (forall t s, handle_request aes parse (simple_handle_plain aes t s) r req = Err INVALID_ARGUMENT).
Proof. intros aes parse r req H. destruct r, req; try (exfalso; apply H; exact I); repeat split. Qed.
Print Assumptions C72_other_role.

(** ** The hypotheses can be met *)

(** A key that no client makes: the value correction of a generated key is replaced.  Five records of
    different sizes; the answer is neither zero nor one of the records. *)
Definition xo_forge (key : dkey) : dkey :=
  {| k_seed := k_seed key; k_cws := k_cws key; k_party := k_party key; k_last := [to_value block_type (VNum 12345)] |}.
Example C72_dense_nonvacuous :
  clog_ok xp_clog 5 /\ ~ overflows xp_clog 5 xp_scalar /\ byte_records xp_five /\ ~ all_empty xp_five /\
  match (db <- fst (build xa_alloc (fold_left insert xp_five new_builder)) ;;
         s <- dense_create_plain ex_F xp_clog (CfgDense 5) (Some db) ;;
         keys <- dense_keys ex_aes (ds_dpf s) 3 (8, 9) ;;
         let key := xo_forge (fst keys) in
         bits <- mapM (fun x => r <- evaluate_at ex_aes (ds_dpf s) block_type key 0 [N.of_nat x] ;; Ok (num_of (hd (VNum 0) r))) (seq 0 8) ;;
         r <- dense_handle_plain ex_aes xt_t s (RqPlain {| pq_keys := [key]; pq_fingerprint := 7 |}) ;;
         Ok (r, Some [selected_xor xp_five 18 bits])) with
  | Ok (r, a) => r = a /\ masked r <> [repeat 0 18] /\ ~ In (hd [] (masked r)) (map (zero_padded 18) xp_five)
  | _ => False
  end.
Proof.
  split; [split; discriminate|]. split; [intros [_ [H _]]; vm_compute in H; discriminate|]. split.
  { repeat (constructor; [split; [repeat constructor|vm_compute; reflexivity]|]). constructor. }
  split; [intros H; inversion H; discriminate|].
  vm_compute. repeat split; [discriminate|]. intuition discriminate.
Qed.
(** A Helper: each kind of failure, and an answer. *)
Definition xo_helper (decrypted : res bytes) (inner : option helper_request) (req : request) : res response :=
  handle_request ex_aes (fun _ => inner) (fun q => match q with RqPlain {| pq_keys := [] |} => Ok (Some xp_helper) | _ => Err INVALID_ARGUMENT end)
    (Helper (fun _ _ => decrypted) []) req.
Example C72_helper_nonvacuous :
  xo_helper (Err INTERNAL) (Some xp_inner) (RqHelper []) = Err INTERNAL /\
  xo_helper (Ok []) None (RqHelper []) = Err INVALID_ARGUMENT /\
  xo_helper (Ok []) (Some {| hq_plain := None; hq_seed := [1] |}) (RqHelper []) = Err INVALID_ARGUMENT /\
  is_ok (xo_helper (Ok []) (Some xp_inner) (RqHelper [])) = true /\
  xo_helper (Ok []) (Some xp_inner) (RqLeader (Some default_plain) (Some [])) = Err INVALID_ARGUMENT.
Proof. repeat split; vm_compute; reflexivity. Qed.
