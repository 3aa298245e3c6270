(** C33, C39, C40 and C55 for all inputs: what the code does where the properties are false. *)
From Coq Require Import List NArith ZArith Lia Bool ZifyBool ZifyNat ZifyN Permutation.
From Verif Require Import Base ListUtil ValueTypesModel DpfModel DpfSpec DpfExamples PirDbModel PirSpec PirIpProofs PirBuildProofs PirModel
  PirProtoSpec PirProtoProofs PirDenseProofs PropertiesPir PropertiesPirProto HashModel HashSpec HashProofs SparseModel SparseSpec
  SparseDbProofs SparseProofs PropertiesSparse PropertiesPirSafety.
Import ListNotations.
Open Scope N_scope.
Ltac Zify.zify_post_hook ::= Z.div_mod_to_equations.

(** ** C33: the queries a client of any size accepts *)

(** The number of elements is converted to int. *)
Theorem C33_queries_exact : forall aes F clog n c queries seeds pad,
  (0 < n < 9223372036854775808)%Z -> clog_ok clog n -> dense_client_create F clog (CfgDense n) true = Ok c ->
  (Forall (fun q => 0 <= q < to_int32 n)%Z queries -> exists r, dense_create_plain_requests aes c queries seeds pad = Ok r) /\
  (~ Forall (fun q => 0 <= q < to_int32 n)%Z queries -> dense_create_plain_requests aes c queries seeds pad = Err INVALID_ARGUMENT).
Proof.
  intros aes F clog n c queries seeds pad Hn HL HC. unfold dense_client_create in HC.
  bind_inv HC. bind_inv HC. bind_inv HC. injection HC as <-. clear Hb Hb0. rename a1 into d. rename Hb1 into Hd.
  unfold dense_create_plain_requests. rewrite range_check. cbn [dc_dpf dc_size].
  assert (Hle : (to_int32 n <= n)%Z) by (unfold to_int32; lia).
  split.
  - intros HF. replace (existsb _ queries) with false.
    2:{ symmetry. apply not_true_is_false. intros HE. apply existsb_exists in HE. destruct HE as (q & Hq & Hr).
        pose proof (proj1 (Forall_forall _ _) HF q Hq). cbv beta in *. lia. }
    cbn [bind].
    assert (HK : exists keys, mapM (fun iq : nat * Z => dense_keys aes d (snd iq) (seeds (fst iq))) (combine (seq 0 (length queries)) queries) = Ok keys).
    { assert (HX : forall l, (forall iq : nat * Z, In iq l -> (0 <= snd iq < n)%Z) ->
        exists keys, mapM (fun iq : nat * Z => dense_keys aes d (snd iq) (seeds (fst iq))) l = Ok keys).
      { induction l as [|x l IH]; intros H; cbn [mapM]; [eauto|].
        destruct (dense_keys_ok aes F clog n ltac:(lia) ltac:(lia) HL d Hd (snd x) (seeds (fst x)) (H x (or_introl eq_refl))) as (k0 & k1 & K & _).
        rewrite K. destruct IH as [keys E]; [auto with datatypes|]. rewrite E. cbn [bind]. eauto. }
      apply HX. intros [i q] Hin. apply in_combine_r in Hin. pose proof (proj1 (Forall_forall _ _) HF q Hin) as Hq. cbv beta in Hq. cbn [snd]. lia. }
    destruct HK as [keys ->]. cbn [bind]. eauto.
  - intros HN. replace (existsb _ queries) with true; [reflexivity|]. symmetry. apply not_false_is_true. intros HE. apply HN.
    apply Forall_forall. intros q Hq. destruct ((q <? 0) || (to_int32 n <=? q))%Z eqn:E; [|lia].
    exfalso. assert (existsb (fun q => (q <? 0)%Z || (to_int32 n <=? q)%Z) queries = true) by (apply existsb_exists; exists q; auto). congruence.
Qed.
Print Assumptions C33_queries_exact.
(** 2^32 + 5 elements: five queries are accepted. *)
Example C33_exact_nonvacuous : (0 < 4294967301 < 9223372036854775808)%Z /\ clog_ok xp_clog 4294967301 /\
  Forall (fun q => 0 <= q < to_int32 4294967301)%Z [0; 4]%Z /\ ~ Forall (fun q => 0 <= q < to_int32 4294967301)%Z [5]%Z.
Proof.
  split; [lia|]. split; [apply xp_clog_ok; reflexivity|]. change (to_int32 4294967301) with 5%Z. split; [repeat constructor; lia|].
  intros H. apply Forall_inv in H. lia.
Qed.

(** ** C39 and C40: the answer to every query *)

(** The key in bucket [i] and the query agree, up to trailing zeros, on the length of the longest key. *)
Definition agrees (K : list bytes) (q : bytes) (i : nat) : Prop := stripped (nth i K []) = stripped (firstn (longest K) q).
(** The answer to any query is the padded value in the first of its buckets whose key agrees with it,
    and nullopt if there is none: C39, C40 and their refutations are special cases. *)
Theorem C39_C40_exact : forall aes F clog sha rnd ch ops0 ops1 ak0 av0 ak1 av1 t0 t1 d0 d1 K V queries seeds pad,
  let p := gs_params (gcrun ops0) in
  cuckoo_setup clog sha rnd ch ops0 ops1 ak0 av0 ak1 av1 t0 t1 d0 d1 K V ->
  queries <> [] -> length pad = 16%nat ->
  exists answers, cuckoo_exchange aes F clog sha ch p t0 t1 d0 d1 queries seeds pad = Ok answers /\
    Forall2 (fun q a =>
      let b := bucket sha (hf_seed (cp_hash p)) (cp_buckets p) q in
      match a with
      | Some w => exists j, (j < Z.to_nat (cp_functions p))%nat /\ (b j < length K)%nat /\ agrees K q (b j) /\
                    (forall j', (j' < j)%nat -> ~ agrees K q (b j')) /\ w = zero_padded (longest V) (nth (b j) V [])
      | None => forall j, (j < Z.to_nat (cp_functions p))%nat -> ~ agrees K q (b j)
      end) queries answers.
Proof.
  intros aes F clog sha rnd ch ops0 ops1 ak0 av0 ak1 av1 t0 t1 d0 d1 K V queries seeds pad p HS Hne Hpad.
  destruct (cuckoo_end_to_end aes F clog sha rnd ch ops0 ops1 ak0 av0 ak1 av1 t0 t1 d0 d1 K V queries seeds pad HS Hne Hpad) as (HE & _ & HB).
  fold p in HE, HB. eexists. split; [exact HE|]. clear HE HS Hne. induction queries as [|q queries IH]; [constructor|]. cbn [map]. constructor; [|exact IH].
  specialize (HB q). rewrite Forall_forall in HB. cbv zeta. set (b := bucket sha (hf_seed (cp_hash p)) (cp_buckets p) q) in *.
  assert (HP : forall j, (j < Z.to_nat (cp_functions p))%nat -> (is_prefix_padded (key_at K (b j)) q = true <-> agrees K q (b j))).
  { intros j Hj. apply prefix_iff. apply longest_le, nth_In, HB, in_seq. lia. }
  unfold answer. fold b.
  assert (HF : forall l, Forall (fun j => (j < Z.to_nat (cp_functions p))%nat) l ->
    match find (fun j => is_prefix_padded (key_at K (b j)) q) l with
    | Some j => exists l1 l2, l = l1 ++ j :: l2 /\ agrees K q (b j) /\ Forall (fun j => ~ agrees K q (b j)) l1
    | None => Forall (fun j => ~ agrees K q (b j)) l
    end).
  { induction l as [|j l IHl]; intros HFl; cbn [find]; [constructor|]. inversion HFl as [|? ? Hj HFl']; subst. specialize (HP j Hj).
    destruct (is_prefix_padded (key_at K (b j)) q).
    - exists [], l. split; [reflexivity|]. split; [apply HP; reflexivity|constructor].
    - assert (HNj : ~ agrees K q (b j)) by (intros C; apply HP in C; discriminate). specialize (IHl HFl'). destruct (find _ l) as [j'|].
      + destruct IHl as (l1 & l2 & -> & H1 & H2). exists (j :: l1), l2. split; [reflexivity|]. split; [exact H1|constructor; assumption].
      + constructor; assumption. }
  specialize (HF (seq 0 (Z.to_nat (cp_functions p)))). rewrite Forall_forall in HF. specialize (HF ltac:(intros j Hj; apply in_seq in Hj; lia)).
  destruct (find _ _) as [j|].
  - destruct HF as (l1 & l2 & Hl & Ha & Hn). assert (Hlen : (length l1 + S (length l2) = Z.to_nat (cp_functions p))%nat).
    { rewrite <- (seq_length (Z.to_nat (cp_functions p)) 0), Hl, app_length. reflexivity. }
    assert (HJ : forall i x, nth_error (l1 ++ j :: l2) i = Some x -> x = i).
    { intros i x H. rewrite <- Hl in H. assert (Hi : (i < length (seq 0 (Z.to_nat (cp_functions p))))%nat) by (apply nth_error_Some; congruence).
      rewrite seq_length in Hi. rewrite nth_error_seq in H by exact Hi. injection H as <-. reflexivity. }
    assert (Hj : j = length l1) by (apply HJ; rewrite nth_error_app2, Nat.sub_diag by lia; reflexivity).
    exists j. split; [lia|]. split; [apply HB, in_seq; lia|]. split; [exact Ha|]. split; [|reflexivity].
    intros j' Hj'. assert (Hlt : (j' < length l1)%nat) by lia. apply nth_error_Some in Hlt. destruct (nth_error l1 j') as [x|] eqn:Ex; [|congruence].
    assert (x = j') as -> by (apply HJ; rewrite nth_error_app1 by lia; exact Ex). exact (proj1 (Forall_forall _ _) Hn _ (nth_error_In _ _ Ex)).
  - intros j Hj. apply (proj1 (Forall_forall _ _) HF). apply in_seq. lia.
Qed.
Print Assumptions C39_C40_exact.
(** [cuckoo_setup] is met by [C39_C40_nonvacuous].  Queries that do and do not agree with a key: *)
Example C39_C40_exact_nonvacuous : agrees [[]; [97]; [99; 99]] [97; 0] 1 /\ ~ agrees [[]; [97]; [99; 99]] [98; 98] 1 /\ agrees [[]; [97]; [99; 99]] [99; 99; 5] 2.
Proof. unfold agrees. vm_compute. repeat split; congruence. Qed.

(** ** C55: when the client of simple hashed PIR reads out of bounds *)

(** The first key of a bucket that equals the query has no value. *)
Definition value_missing (bucket : bucket_proto) (q : bytes) : Prop :=
  exists j, nth_error (fst bucket) j = Some q /\ (forall j', (j' < j)%nat -> nth_error (fst bucket) j' <> Some q) /\ (length (snd bucket) <= j)%nat.
Lemma compare_bytes_eq : forall a b, compare_bytes a b = Eq <-> a = b.
Proof.
  induction a as [|x a IH]; intros [|y b]; cbn [compare_bytes]; split; intros H; try discriminate; try reflexivity.
  - destruct (N.compare_spec x y); try discriminate. subst. f_equal. apply IH, H.
  - injection H as -> ->. rewrite N.compare_refl. apply IH. reflexivity.
Qed.
Lemma simple_search_exact : forall keys values q j,
  (simple_search keys j values q = UB /\ exists i, nth_error keys i = Some q /\ (forall i', (i' < i)%nat -> nth_error keys i' <> Some q) /\ (length values <= j + i)%nat) \/
  ((exists a, simple_search keys j values q = Ok a) /\
   ~ exists i, nth_error keys i = Some q /\ (forall i', (i' < i)%nat -> nth_error keys i' <> Some q) /\ (length values <= j + i)%nat).
Proof.
  induction keys as [|key keys IH]; intros values q j; cbn [simple_search].
  - right. split; [eauto|]. intros (i & H & _). destruct i; discriminate.
  - destruct (compare_bytes key q) eqn:E.
    + apply compare_bytes_eq in E. subst key. unfold at_or_ub. destruct (nth_error values j) as [v|] eqn:Ev; cbn [bind].
      * right. split; [eauto|]. intros (i & _ & H1 & H2). destruct i as [|i]; [|apply (H1 0%nat); [lia|reflexivity]].
        assert (j < length values)%nat by (apply nth_error_Some; congruence). lia.
      * left. split; [reflexivity|]. exists 0%nat. split; [reflexivity|]. split; [lia|]. apply nth_error_None in Ev. lia.
    + assert (HN : key <> q) by (intros C; apply compare_bytes_eq in C; congruence). destruct (IH values q (S j)) as [[H1 (i & H2 & H3 & H4)]|[H1 H2]].
      * left. split; [exact H1|]. exists (S i). split; [exact H2|]. split; [|lia]. intros [|i'] Hi'; cbn [nth_error]; [congruence|apply H3; lia].
      * right. split; [exact H1|]. intros ([|i] & H3 & H4 & H5); cbn [nth_error] in H3; [congruence|]. apply H2. exists i. split; [exact H3|]. split; [|lia].
        intros i' Hi'. apply (H4 (S i')). lia.
    + assert (HN : key <> q) by (intros C; apply compare_bytes_eq in C; congruence). destruct (IH values q (S j)) as [[H1 (i & H2 & H3 & H4)]|[H1 H2]].
      * left. split; [exact H1|]. exists (S i). split; [exact H2|]. split; [|lia]. intros [|i'] Hi'; cbn [nth_error]; [congruence|apply H3; lia].
      * right. split; [exact H1|]. intros ([|i] & H3 & H4 & H5); cbn [nth_error] in H3; [congruence|]. apply H2. exists i. split; [exact H3|]. split; [|lia].
        intros i' Hi'. apply (H4 (S i')). lia.
Qed.
(** For all responses and states: the client never aborts, and reads out of bounds exactly if the
    bucket of some query, after removing the mask, lacks the value of the query. *)
Theorem C55_simple_exact : forall aes resp state,
  simple_handle_response aes resp state <> Crash /\
  (simple_handle_response aes resp state = UB <->
   exists l seed queries raw i q r, resp = Some l /\ state = CsSimple seed queries /\ length queries = length l /\
     dense_handle_response aes (Some l) (CsDense seed) = Ok raw /\ nth_error queries i = Some q /\ nth_error raw i = Some r /\
     value_missing (parse_bucket r) q).
Proof.
  intros aes resp state.
  assert (HX : forall r : res (list (option bytes)), (exists e, r = Err e) ->
    (~ exists l seed queries raw i q b, resp = Some l /\ state = CsSimple seed queries /\ length queries = length l /\
     dense_handle_response aes (Some l) (CsDense seed) = Ok raw /\ nth_error queries i = Some q /\ nth_error raw i = Some b /\
     value_missing (parse_bucket b) q) -> r <> Crash /\ (r = UB <-> exists l seed queries raw i q b, resp = Some l /\ state = CsSimple seed queries /\ length queries = length l /\
     dense_handle_response aes (Some l) (CsDense seed) = Ok raw /\ nth_error queries i = Some q /\ nth_error raw i = Some b /\
     value_missing (parse_bucket b) q)).
  { intros r (e & ->) HN. split; [discriminate|]. split; [discriminate|]. intros H. contradiction. }
  destruct resp as [l|]; cbn [simple_handle_response]; [|apply HX; [eauto|intros (? & ? & ? & ? & ? & ? & ? & H & _); discriminate]].
  destruct state as [| | |seed queries]; cbn [bind]; try (apply HX; [eauto|intros (? & ? & ? & ? & ? & ? & ? & _ & H & _); discriminate]).
  destruct (Nat.eqb_spec (length queries) (length l)) as [HL|HL]; cbn [check bind].
  2:{ apply HX; [eauto|]. intros (l' & seed' & queries' & ? & ? & ? & ? & H1 & H2 & H3 & _). inversion H1. inversion H2. subst. contradiction. }
  pose proof (C55_dense aes (Some l) (CsDense seed)) as [HD1 HD2]. destruct (dense_handle_response aes (Some l) (CsDense seed)) as [raw|e| |] eqn:ED; try congruence; cbn [bind].
  2:{ apply HX; [eauto|]. intros (l' & seed' & queries' & raw & ? & ? & ? & H1 & H2 & _ & H4 & _). inversion H1. inversion H2. subst. congruence. }
  pose proof (dense_response_length _ _ _ _ ED) as HR.
  set (f := fun ir : nat * bytes => _).
  assert (HF : forall off raw', (forall i r, nth_error raw' i = Some r -> nth_error raw (off + i) = Some r) ->
    mapM f (combine (seq off (length raw')) raw') <> Crash /\
    (mapM f (combine (seq off (length raw')) raw') = UB <-> exists i q r, nth_error queries (off + i) = Some q /\ nth_error raw' i = Some r /\ value_missing (parse_bucket r) q) /\
    forall e, mapM f (combine (seq off (length raw')) raw') <> Err e).
  { intros off raw'. revert off. induction raw' as [|r raw' IH]; intros off Hoff; cbn [length seq combine mapM].
    - split; [discriminate|]. split; [|discriminate]. split; [discriminate|]. intros ([|i] & q & r & _ & H & _); discriminate.
    - destruct (IH (S off)) as (I1 & I2 & I3). { intros i r' H. rewrite Nat.add_succ_l, <- Nat.add_succ_r. apply Hoff. exact H. }
      pose proof (Hoff 0%nat r eq_refl) as H0. rewrite Nat.add_0_r in H0.
      assert (Hlt : (off < length queries)%nat) by (rewrite HL, <- HR; apply nth_error_Some; congruence).
      unfold f at 1 3 5. cbn [fst snd]. unfold at_or_ub. apply nth_error_Some in Hlt. destruct (nth_error queries off) as [q|] eqn:Eq; [|congruence]. cbn [bind].
      destruct (parse_bucket r) as [keys values] eqn:Ep.
      assert (HS : forall P : Prop, (exists i q r0, nth_error queries (off + i) = Some q /\ nth_error (r :: raw') i = Some r0 /\ value_missing (parse_bucket r0) q) <->
        (value_missing (keys, values) q \/ exists i q r0, nth_error queries (S off + i) = Some q /\ nth_error raw' i = Some r0 /\ value_missing (parse_bucket r0) q)).
      { intros _. split.
        - intros ([|i] & q' & r0 & H1 & H2 & H3); [left|right].
          + rewrite Nat.add_0_r in H1. cbn [nth_error] in H2. inversion H2; subst. rewrite Ep in H3. congruence.
          + exists i, q', r0. rewrite Nat.add_succ_l, <- Nat.add_succ_r. auto.
        - intros [H|(i & q' & r0 & H1 & H2 & H3)].
          + exists 0%nat, q, r. rewrite Nat.add_0_r, Ep. auto.
          + exists (S i), q', r0. rewrite Nat.add_succ_r, <- Nat.add_succ_l. auto. }
      rewrite (HS True). clear HS. unfold value_missing at 1. cbn [fst snd].
      destruct (simple_search_exact keys values q 0) as [[H1 H2]|[(a & H1) H2]]; rewrite H1; cbn [bind]; cbn [Nat.add] in H2.
      + split; [discriminate|]. split; [|discriminate]. split; [intros _; left; exact H2|reflexivity].
      + destruct (mapM f _) as [as'|e| |] eqn:EM; cbn [bind].
        * split; [discriminate|]. split; [|discriminate]. split; [discriminate|]. intros [H|H]; [contradiction|]. apply I2 in H. discriminate.
        * exfalso. exact (I3 e eq_refl).
        * exfalso. exact (I1 eq_refl).
        * split; [discriminate|]. split; [|discriminate]. split; [intros _; right; apply I2; reflexivity|reflexivity]. }
  destruct (HF 0%nat raw) as (F1 & F2 & _); [auto|]. split; [exact F1|]. rewrite F2. split.
  - intros (i & q & r & H1 & H2 & H3). exists l, seed, queries, raw, i, q, r. auto 10.
  - intros (l' & seed' & queries' & raw' & i & q & r & E1 & E2 & _ & E4 & H1 & H2 & H3). inversion E1. inversion E2. subst. rewrite ED in E4. inversion E4. subst. exists i, q, r. auto.
Qed.
Print Assumptions C55_simple_exact.
Example C55_exact_nonvacuous : value_missing (parse_bucket (encode_field 10 [97])) [97] /\ ~ value_missing (parse_bucket (encode_field 10 [97])) [98] /\
  ~ value_missing (parse_bucket (encode_field 18 [1] ++ encode_field 10 [97] ++ encode_field 10 [97])) [97].
Proof.
  split; [exists 0%nat; vm_compute; repeat split; auto; intros j' H; inversion H|]. split.
  - intros ([|[|j]] & H & _); vm_compute in H; discriminate.
  - intros ([|[|[|j]]] & H & H1 & H2); vm_compute in H; try discriminate; [vm_compute in H2; lia|apply (H1 0%nat); [lia|reflexivity]].
Qed.
(** Unknown fields of every wire type are skipped, also a key inside a group. *)
Example parse_skips_unknown : parse_bucket ([24; 5] ++ encode_field 10 [97] ++ [25; 1; 2; 3; 4; 5; 6; 7; 8; 29; 1; 2; 3; 4; 27] ++
  encode_field 10 [98] ++ [28] ++ encode_field 26 [9] ++ [8; 7] ++ encode_field 18 [1] ++ [0; 0]) = ([[97]], [[1]]).
Proof. vm_compute. reflexivity. Qed.
