(** C50: what the request for one PIR server reveals about the queries. *)
From Coq Require Import List NArith ZArith Lia Bool ZifyBool ZifyNat ZifyN.
From Verif Require Import Base ListUtil ValueTypesModel ValueTypesSpec DpfModel DpfSpec DpfExamples DpfPrivacySpec DpfHide DpfBiject
  PirDbModel PirSpec PirModel PirProtoSpec PirProtoProofs PirDenseProofs PropertiesPirProto PirPrivacy HashModel SparseModel SparseSpec
  SparseDbProofs SparseProofs PropertiesSparse PropertiesPrivacy.
Import ListNotations.
Ltac Zify.zify_post_hook ::= Z.div_mod_to_equations.
Open Scope N_scope.

(** The DPF object with which the client generates keys. *)
Definition client_dpf (c : dense_client) : dpf := register_value_type block_type (dc_dpf c).

Lemma client_created : forall F clog n c, (0 < n < 2147483648)%Z -> dense_client_create F clog (CfgDense n) true = Ok c ->
  create_incremental F (dense_params clog n) = Ok (dc_dpf c) /\ c = {| dc_dpf := dc_dpf c; dc_size := n |}.
Proof.
  intros F clog n c Hn H. unfold dense_client_create in H. destruct (Z.ltb_spec 0 n); [|lia]. cbn [check bind] in H.
  bind_inv H. injection H as <-. rewrite to_int32_id by lia. auto.
Qed.

(** * The shape of the requests *)

(** One key per query for each server; nothing else depends on the queries. *)
Theorem C50_shape : forall aes F clog n c qs seeds pad l h st, (0 < n < 2147483648)%Z -> clog_ok clog n ->
  dense_client_create F clog (CfgDense n) true = Ok c ->
  dense_create_plain_requests aes c qs seeds pad = Ok (l, h, st) ->
  length (pq_keys l) = length qs /\ pq_fingerprint l = 0 /\
  Forall (key_shape (dense_params clog n) (client_dpf c) 0) (pq_keys l) /\
  hq_seed h = pad /\ st = CsDense pad /\
  match hq_plain h with
  | None => qs = []
  | Some p => qs <> [] /\ length (pq_keys p) = length qs /\ pq_fingerprint p = 0 /\
              Forall (key_shape (dense_params clog n) (client_dpf c) 1) (pq_keys p)
  end.
Proof.
  intros aes F clog n c qs seeds pad l h st Hn HL Hc H. destruct (client_created F clog n c Hn Hc) as [Hd Ec].
  unfold client_dpf. rewrite Ec in H. set (d := dc_dpf c) in *.
  pose proof (requests_valid n d aes qs seeds pad _ H) as HV. rewrite requests_eq in H by auto. bind_inv H. injection H as <- <- <-.
  destruct (jobs_run F clog n Hn HL d Hd aes seeds qs qs 0 a HV HV eq_refl Hb) as (J0 & J1 & _ & _).
  assert (HK : forall ks, In ks a -> key_shape (dense_params clog n) (register_value_type block_type d) 0 (fst ks) /\
                                     key_shape (dense_params clog n) (register_value_type block_type d) 1 (snd ks)).
  { clear - J0 J1 Hd. revert J0 J1. generalize 0%nat. revert a.
    induction qs as [|q qs IH]; intros [|k a] i J0 J1 ks Hin; try discriminate; [destruct Hin|].
    cbn [combine jobs] in J1. inversion J1 as [|? ? [Ha HG] J2]; subst. cbn [DpfBatch.j_alpha DpfBatch.j_beta DpfBatch.j_s0 DpfBatch.j_s1 DpfBatch.j_keys] in *.
    destruct Hin as [<- | Hin].
    - pose proof (dense_created F clog n d Hd) as HC. split.
      + exact (generated_shape F _ _ _ HC aes _ _ _ _ _ false Ha HG).
      + exact (generated_shape F _ _ _ HC aes _ _ _ _ _ true Ha HG).
    - injection J0 as J0. exact (IH a (S i) J0 J2 ks Hin). }
  cbn [pq_keys pq_fingerprint hq_plain hq_seed]. rewrite map_length. split; [exact J0|]. split; [reflexivity|].
  split. { apply Forall_forall. intros k Hk. apply in_map_iff in Hk. destruct Hk as (ks & <- & Hin). apply HK; auto. }
  split; [reflexivity|]. split; [reflexivity|]. destruct a as [|k a]; [destruct qs; [reflexivity|discriminate]|].
  cbn [pq_keys pq_fingerprint]. rewrite map_length. split; [intros ->; discriminate|]. split; [exact J0|]. split; [reflexivity|].
  apply Forall_forall. intros k' Hk. apply in_map_iff in Hk. destruct Hk as (ks & <- & Hin). apply HK; auto.
Qed.
Print Assumptions C50_shape.

(** * Dense PIR *)

(** The same requests are generated from the same randomness for any other valid queries,
    under a block cipher that differs only at the blocks that the other server encrypts
    along the paths of the queried blocks.  No program that is given one server's request and
    the cipher notices, unless it asks for one of those blocks. *)
Theorem C50_dense_hides : forall F clog n c, (0 < n < 2147483648)%Z -> clog_ok clog n ->
  dense_client_create F clog (CfgDense n) true = Ok c ->
  forall (f : bool) aes qs qs' seeds pad l h st,
  dense_create_plain_requests aes c qs seeds pad = Ok (l, h, st) ->
  length qs' = length qs -> Forall (fun q => 0 <= q < n)%Z qs' ->
  all_apart aes (dense_params clog n) (client_dpf c) f (query_pairs l h qs qs') ->
  let uses := others_uses aes (dense_params clog n) (client_dpf c) f (query_pairs l h qs qs') in
  exists aes1, dense_create_plain_requests aes1 c qs' seeds pad = Ok (l, h, st) /\
    agree_off uses aes aes1 /\
    (on_blocks aes -> (forall i, fst (seeds i) < 2 ^ 128 /\ snd (seeds i) < 2 ^ 128) -> on_blocks aes1) /\
    forall adversary : plain_request + helper_request -> oracle_program,
      disjoint (asked aes (adversary (view f l h))) uses ->
      run_program aes1 (adversary (view f l h)) = run_program aes (adversary (view f l h)) /\
      asked aes1 (adversary (view f l h)) = asked aes (adversary (view f l h)).
Proof.
  intros F clog n c Hn HL Hc f aes qs qs' seeds pad l h st H HE HV HA uses.
  destruct (client_created F clog n c Hn Hc) as [Hd Ec]. rewrite Ec in H.
  destruct (dense_hides F clog n Hn HL (dc_dpf c) Hd f aes qs qs' seeds pad l h st H HE HV HA) as (aes1 & H1 & H2 & H3).
  exists aes1. rewrite <- Ec in H1. split; [exact H1|]. split; [exact H2|]. split; [exact H3|].
  intros adversary HQ. apply (program_agree uses); auto.
Qed.
Print Assumptions C50_dense_hides.

(** The exchange of the queries is injective on the ciphers where the blocks do not coincide,
    so that any requests have as many causes for [qs] as for [qs']. *)
Theorem C50_dense_bijection : forall F clog n c, (0 < n < 2147483648)%Z -> clog_ok clog n ->
  dense_client_create F clog (CfgDense n) true = Ok c ->
  forall (f : bool) seeds, (forall i, fst (seeds i) < 2 ^ 128 /\ snd (seeds i) < 2 ^ 128) ->
  exists exchange undo : list Z -> list Z -> (N -> N -> N) -> (N -> N -> N),
  forall aes qs qs' pad l h st, on_blocks aes ->
  dense_create_plain_requests aes c qs seeds pad = Ok (l, h, st) ->
  length qs' = length qs -> Forall (fun q => 0 <= q < n)%Z qs' ->
  all_apart aes (dense_params clog n) (client_dpf c) f (query_pairs l h qs qs') ->
  let aes1 := exchange qs qs' aes in
  let uses := others_uses aes (dense_params clog n) (client_dpf c) f (query_pairs l h qs qs') in
  on_blocks aes1 /\ dense_create_plain_requests aes1 c qs' seeds pad = Ok (l, h, st) /\
  all_apart aes1 (dense_params clog n) (client_dpf c) f (query_pairs l h qs' qs) /\
  others_uses aes1 (dense_params clog n) (client_dpf c) f (query_pairs l h qs' qs) = uses /\
  agree_off uses aes aes1 /\ (forall k x, undo qs qs' aes1 k x = aes k x) /\
  forall adversary : plain_request + helper_request -> oracle_program,
    disjoint (asked aes (adversary (view f l h))) uses ->
    run_program aes1 (adversary (view f l h)) = run_program aes (adversary (view f l h)) /\
    asked aes1 (adversary (view f l h)) = asked aes (adversary (view f l h)).
Proof.
  intros F clog n c Hn HL Hc f seeds HS. destruct (client_created F clog n c Hn Hc) as [Hd Ec].
  exists (fun qs qs' => DpfBatch.exchange_all (dense_params clog n) (client_dpf c) f (query_jobs seeds qs qs')),
         (fun qs qs' => DpfBatch.undo_all (dense_params clog n) (client_dpf c) f (query_jobs seeds qs qs')).
  intros aes qs qs' pad l h st HB H HE HV HA aes1 uses. rewrite Ec in H.
  destruct (dense_exchange F clog n Hn HL (dc_dpf c) Hd f seeds HS aes qs qs' pad l h st HB H HE HV HA) as (E1 & E2 & E3 & E4 & E5 & E6).
  rewrite <- Ec in E2. do 6 (split; [assumption|]). intros adversary HQ. apply (program_agree uses); auto.
Qed.
Print Assumptions C50_dense_bijection.

(** * Sparse PIR *)

(** The buckets that are looked up for the queries. *)
Definition buckets_of (sha : bytes -> bytes) (seed : bytes) (n : Z) (k : nat) (qs : list bytes) : list Z :=
  flat_map (fun q => map (fun j => Z.of_nat (bucket sha seed n q j)) (seq 0 k)) qs.

Lemma buckets_valid : forall sha seed n k qs, (0 < n)%Z -> Forall (fun q => 0 <= q < n)%Z (buckets_of sha seed n k qs).
Proof.
  intros sha seed n k qs Hn. apply Forall_forall. intros q Hq. apply in_flat_map in Hq. destruct Hq as (x & _ & Hq).
  apply in_map_iff in Hq. destruct Hq as (j & <- & _). unfold bucket.
  pose proof (Z.mod_pos_bound (Z.of_N (le_decode (sha (seed ++ str_cat (N.of_nat j) ++ x)))) n Hn). lia.
Qed.
Lemma buckets_length : forall sha seed n k qs qs', length qs' = length qs ->
  length (buckets_of sha seed n k qs') = length (buckets_of sha seed n k qs).
Proof.
  intros sha seed n k. induction qs as [|q qs IH]; intros [|q' qs'] H; try discriminate; [reflexivity|].
  unfold buckets_of in *. cbn [flat_map]. rewrite !app_length, !map_length. f_equal. apply IH. cbn [length] in H. lia.
Qed.

Lemma mapM_map_arg : forall A B C (f : B -> res C) (g : A -> B) l, mapM f (map g l) = mapM (fun a => f (g a)) l.
Proof. intros A B C f g. induction l as [|a l IH]; [reflexivity|]. cbn [map mapM]. rewrite IH. reflexivity. Qed.
Lemma cuckoo_client_parts : forall sha F clog p c, (forall x, length (sha x) = 32%nat) -> (cp_buckets p < 2147483648)%Z ->
  cuckoo_client_create sha F clog (PpCuckoo p) true = Ok c ->
  (0 < cp_buckets p)%Z /\ dense_client_create F clog (CfgDense (cp_buckets p)) true = Ok (cc_dense c) /\
  forall aes qs seeds pad, cuckoo_create_plain_requests aes c qs seeds pad =
    ('(l, h, st) <- dense_create_plain_requests aes (cc_dense c)
                      (buckets_of sha (hf_seed (cp_hash p)) (cp_buckets p) (Z.to_nat (cp_functions p)) qs) seeds pad ;;
     let '(l, h) := add_fingerprint (cc_fingerprint c) l h in Ok (l, h, CsCuckoo (dense_seed st) qs)).
Proof.
  intros sha F clog p c Hs Hp H. unfold cuckoo_client_create in H. cbn [check bind] in H. bind_inv H. bind_inv H. apply check_ok in Hb, Hb0.
  bind_inv H. bind_inv H. bind_inv H. bind_inv H. injection H as <-.
  destruct (functions_eq sha _ _ _ _ Hb1 Hb3) as (-> & Hk & _ & _).
  split; [lia|]. split; [exact Hb4|]. intros aes qs seeds pad. unfold cuckoo_create_plain_requests. cbn [cc_functions cc_buckets cc_dense cc_fingerprint].
  rewrite to_int32_id by lia.
  rewrite (mapM_map_ok _ _ _ (fun q => map (fun j => Z.of_nat (bucket sha (hf_seed (cp_hash p)) (cp_buckets p) q j)) (seq 0 (Z.to_nat (cp_functions p))))).
  - cbn [bind]. unfold buckets_of. rewrite flat_map_concat_map. reflexivity.
  - intros q _. rewrite mapM_map_arg. apply mapM_map_ok. intros j _. apply function_value; auto. lia.
Qed.
Lemma simple_client_parts : forall sha F clog p c, (forall x, length (sha x) = 32%nat) -> (sp_buckets p < 2147483648)%Z ->
  simple_client_create sha F clog (PpSimple p) true = Ok c ->
  (0 < sp_buckets p)%Z /\ dense_client_create F clog (CfgDense (sp_buckets p)) true = Ok (sc_dense c) /\
  forall aes qs seeds pad, simple_create_plain_requests aes c qs seeds pad =
    ('(l, h, st) <- dense_create_plain_requests aes (sc_dense c)
                      (buckets_of sha (hf_seed (sp_hash p)) (sp_buckets p) 1 qs) seeds pad ;;
     let '(l, h) := add_fingerprint (sc_fingerprint c) l h in Ok (l, h, CsSimple (dense_seed st) qs)).
Proof.
  intros sha F clog p c Hs Hp H. unfold simple_client_create in H. cbn [check bind] in H. bind_inv H. apply check_ok in Hb.
  bind_inv H. bind_inv H. bind_inv H. bind_inv H. bind_inv H. injection H as <-.
  destruct (functions_eq sha _ _ _ _ Hb0 Hb2) as (-> & Hk & _ & _). cbn in Hb3. injection Hb3 as <-.
  split; [lia|]. split; [exact Hb4|]. intros aes qs seeds pad. unfold simple_create_plain_requests. cbn [sc_function sc_buckets sc_dense sc_fingerprint].
  rewrite to_int32_id by lia.
  rewrite (mapM_map_ok _ _ _ (fun q => Z.of_nat (bucket sha (hf_seed (sp_hash p)) (sp_buckets p) q 0))).
  - cbn [bind]. unfold buckets_of. cbn [seq map]. replace (flat_map _ qs) with (map (fun q => Z.of_nat (bucket sha (hf_seed (sp_hash p)) (sp_buckets p) q 0)) qs); [reflexivity|].
    clear. induction qs as [|q qs IH]; [reflexivity|]. cbn [map flat_map app]. rewrite IH. reflexivity.
  - intros q _. apply (function_value sha (hf_seed (sp_hash p)) q (sp_buckets p) 0); auto. lia.
Qed.

Lemma fingerprint_keys : forall fp l h l' h', length (pq_keys l) = length (match hq_plain h with Some p => pq_keys p | None => [] end) ->
  add_fingerprint fp l h = (l', h') -> request_keys l' h' = request_keys l h.
Proof.
  intros fp l h l' h' HE H. unfold add_fingerprint in H. injection H as <- <-. unfold request_keys. cbn [pq_keys hq_plain with_fingerprint].
  destruct (hq_plain h); [reflexivity|]. destruct (pq_keys l); [reflexivity|discriminate].
Qed.

(** For both kinds of sparse PIR, the requests do not determine the queries or even their
    buckets, in the same sense: given any other list of as many strings, they are also the
    requests for those.  The client's private state differs only in the recorded queries. *)
Theorem C50_cuckoo_hides : forall sha F clog p c, (forall x, length (sha x) = 32%nat) -> (cp_buckets p < 2147483648)%Z ->
  clog_ok clog (cp_buckets p) -> cuckoo_client_create sha F clog (PpCuckoo p) true = Ok c ->
  forall (f : bool) aes qs qs' seeds pad l h st,
  cuckoo_create_plain_requests aes c qs seeds pad = Ok (l, h, st) -> length qs' = length qs ->
  let ps := dense_params clog (cp_buckets p) in
  let d := client_dpf (cc_dense c) in
  let buckets := buckets_of sha (hf_seed (cp_hash p)) (cp_buckets p) (Z.to_nat (cp_functions p)) in
  all_apart aes ps d f (query_pairs l h (buckets qs) (buckets qs')) ->
  let uses := others_uses aes ps d f (query_pairs l h (buckets qs) (buckets qs')) in
  exists aes1, cuckoo_create_plain_requests aes1 c qs' seeds pad = Ok (l, h, CsCuckoo pad qs') /\ st = CsCuckoo pad qs /\
    agree_off uses aes aes1 /\
    (on_blocks aes -> (forall i, fst (seeds i) < 2 ^ 128 /\ snd (seeds i) < 2 ^ 128) -> on_blocks aes1) /\
    forall adversary : plain_request + helper_request -> oracle_program,
      disjoint (asked aes (adversary (view f l h))) uses ->
      run_program aes1 (adversary (view f l h)) = run_program aes (adversary (view f l h)) /\
      asked aes1 (adversary (view f l h)) = asked aes (adversary (view f l h)).
Proof.
  intros sha F clog p c Hs Hp HL Hc f aes qs qs' seeds pad l h st H HE ps d buckets HA uses.
  destruct (cuckoo_client_parts sha F clog p c Hs Hp Hc) as (Hpos & Hdc & EQ). fold buckets in EQ. rewrite EQ in H. bind_inv H.
  destruct a as [[l0 h0] st0]. destruct (add_fingerprint (cc_fingerprint c) l0 h0) as [l1 h1] eqn:EF. injection H as <- <- <-.
  destruct (C50_shape aes F clog _ _ _ seeds pad l0 h0 st0 (conj Hpos Hp) HL Hdc Hb) as (S1 & _ & _ & S2 & S3 & S4).
  assert (EK : request_keys l1 h1 = request_keys l0 h0).
  { apply (fingerprint_keys (cc_fingerprint c)); auto. rewrite S1. destruct (hq_plain h0); [symmetry; apply S4|]. rewrite S4. reflexivity. }
  unfold uses, query_pairs in *. rewrite EK in *.
  destruct (C50_dense_hides F clog _ _ (conj Hpos Hp) HL Hdc f aes (buckets qs) (buckets qs') seeds pad l0 h0 st0 Hb
    (buckets_length _ _ _ _ _ _ HE) (buckets_valid _ _ _ _ _ Hpos) HA) as (aes1 & H1 & H2 & H3 & _).
  exists aes1. split; [|split; [rewrite S3; reflexivity|split; [exact H2|split; [exact H3|]]]].
  - rewrite EQ, H1. cbn [bind]. rewrite EF, S3. reflexivity.
  - intros adversary HQ. eapply program_agree; eauto.
Qed.
Print Assumptions C50_cuckoo_hides.

Theorem C50_simple_hides : forall sha F clog p c, (forall x, length (sha x) = 32%nat) -> (sp_buckets p < 2147483648)%Z ->
  clog_ok clog (sp_buckets p) -> simple_client_create sha F clog (PpSimple p) true = Ok c ->
  forall (f : bool) aes qs qs' seeds pad l h st,
  simple_create_plain_requests aes c qs seeds pad = Ok (l, h, st) -> length qs' = length qs ->
  let ps := dense_params clog (sp_buckets p) in
  let d := client_dpf (sc_dense c) in
  let buckets := buckets_of sha (hf_seed (sp_hash p)) (sp_buckets p) 1 in
  all_apart aes ps d f (query_pairs l h (buckets qs) (buckets qs')) ->
  let uses := others_uses aes ps d f (query_pairs l h (buckets qs) (buckets qs')) in
  exists aes1, simple_create_plain_requests aes1 c qs' seeds pad = Ok (l, h, CsSimple pad qs') /\ st = CsSimple pad qs /\
    agree_off uses aes aes1 /\
    (on_blocks aes -> (forall i, fst (seeds i) < 2 ^ 128 /\ snd (seeds i) < 2 ^ 128) -> on_blocks aes1) /\
    forall adversary : plain_request + helper_request -> oracle_program,
      disjoint (asked aes (adversary (view f l h))) uses ->
      run_program aes1 (adversary (view f l h)) = run_program aes (adversary (view f l h)) /\
      asked aes1 (adversary (view f l h)) = asked aes (adversary (view f l h)).
Proof.
  intros sha F clog p c Hs Hp HL Hc f aes qs qs' seeds pad l h st H HE ps d buckets HA uses.
  destruct (simple_client_parts sha F clog p c Hs Hp Hc) as (Hpos & Hdc & EQ). fold buckets in EQ. rewrite EQ in H. bind_inv H.
  destruct a as [[l0 h0] st0]. destruct (add_fingerprint (sc_fingerprint c) l0 h0) as [l1 h1] eqn:EF. injection H as <- <- <-.
  destruct (C50_shape aes F clog _ _ _ seeds pad l0 h0 st0 (conj Hpos Hp) HL Hdc Hb) as (S1 & _ & _ & S2 & S3 & S4).
  assert (EK : request_keys l1 h1 = request_keys l0 h0).
  { apply (fingerprint_keys (sc_fingerprint c)); auto. rewrite S1. destruct (hq_plain h0); [symmetry; apply S4|]. rewrite S4. reflexivity. }
  unfold uses, query_pairs in *. rewrite EK in *.
  destruct (C50_dense_hides F clog _ _ (conj Hpos Hp) HL Hdc f aes (buckets qs) (buckets qs') seeds pad l0 h0 st0 Hb
    (buckets_length _ _ _ _ _ _ HE) (buckets_valid _ _ _ _ _ Hpos) HA) as (aes1 & H1 & H2 & H3 & _).
  exists aes1. split; [|split; [rewrite S3; reflexivity|split; [exact H2|split; [exact H3|]]]].
  - rewrite EQ, H1. cbn [bind]. rewrite EF, S3. reflexivity.
  - intros adversary HQ. eapply program_agree; eauto.
Qed.
Print Assumptions C50_simple_hides.

(** * The hypotheses can be met *)

Definition apartb (aes : N -> N -> N) ps d f l : bool :=
  let u := others_uses aes ps d f l in
  nodupb u && forallb (fun j => disjointb (path_uses aes ps d (key_of f (fst j)) (fst (snd j))) u &&
                                disjointb (path_uses aes ps d (key_of f (fst j)) (snd (snd j))) u) l.
Lemma apartb_ok : forall aes ps d f l, apartb aes ps d f l = true -> all_apart aes ps d f l.
Proof.
  intros aes ps d f l H. unfold apartb in H. apply andb_true_iff in H. destruct H as [H1 H2]. split; [apply nodupb_ok; exact H1|].
  rewrite forallb_forall in H2. intros j Hj. specialize (H2 j Hj). apply andb_true_iff in H2. split; apply disjointb_ok; apply H2.
Qed.

Definition xw_seeds (i : nat) : N * N := let (a, b) := xp_seeds i in (a mod 2 ^ 128, b mod 2 ^ 128).
Lemma xw_seeds_ok : forall i, fst (xw_seeds i) < 2 ^ 128 /\ snd (xw_seeds i) < 2 ^ 128.
Proof. intros i. unfold xw_seeds. destruct (xp_seeds i). cbn [fst snd]. split; apply N.mod_lt; discriminate. Qed.

Definition xw_client : res dense_client := Eval vm_compute in dense_client_create ex_F xp_clog (CfgDense 30) true.
Example C50_dense_nonvacuous :
  match xw_client with
  | Ok c => dense_client_create ex_F xp_clog (CfgDense 30) true = Ok c /\ clog_ok xp_clog 30 /\ on_blocks ex_aes /\
      match dense_create_plain_requests ex_aes c [0; 29]%Z xw_seeds xp_seed with
      | Ok (l, h, _) => forall f, all_apart ex_aes (dense_params xp_clog 30) (client_dpf c) f (query_pairs l h [0; 29]%Z [13; 7]%Z)
      | _ => False
      end
  | _ => False
  end.
Proof.
  assert (HC : clog_ok xp_clog 30) by (apply xp_clog_ok; reflexivity).
  set (P := clog_ok xp_clog 30) in *. clearbody P.
  set (r := match xw_client with Ok c => dense_create_plain_requests ex_aes c [0; 29]%Z xw_seeds xp_seed | _ => UB end).
  assert (HB : match xw_client with Ok c => match r with
     | Ok (l, h, _) => forallb (fun f => apartb ex_aes (dense_params xp_clog 30) (client_dpf c) f (query_pairs l h [0; 29]%Z [13; 7]%Z)) [false; true]
     | _ => false end | _ => false end = true) by (vm_compute; reflexivity).
  destruct xw_client as [c| | |] eqn:EC; try discriminate.
  split; [rewrite <- EC; vm_compute; reflexivity|]. split; [exact HC|]. split; [exact ex_on_blocks|].
  fold r. destruct r as [[[l h] st]| | |]; try discriminate.
  intros f. apply apartb_ok. cbn [forallb] in HB. rewrite !andb_true_iff in HB. destruct f; apply HB.
Qed.

(** Sparse clients for 12 buckets. *)
Definition xw_qs : list bytes := [[97]; [98; 99]].
Definition xw_qs' : list bytes := [[]; [1; 2; 3]].
Definition xw_simple : simple_params := {| sp_hash := {| hf_family := 1; hf_seed := [1] |}; sp_buckets := 12 |}.
Example C50_sparse_nonvacuous :
  clog_ok xp_clog 12 /\ (forall x, length (xq_sha x) = 32%nat) /\
  match cuckoo_client_create xq_sha ex_F xp_clog (PpCuckoo (xq_params 12)) true with
  | Ok c => match cuckoo_create_plain_requests ex_aes c xw_qs xw_seeds xp_seed with
      | Ok (l, h, _) =>
          let buckets := buckets_of xq_sha [1] 12 2 in
          length (pq_keys l) = 4%nat /\
          forall f, all_apart ex_aes (dense_params xp_clog 12) (client_dpf (cc_dense c)) f (query_pairs l h (buckets xw_qs) (buckets xw_qs'))
      | _ => False
      end
  | _ => False
  end /\
  match simple_client_create xq_sha ex_F xp_clog (PpSimple xw_simple) true with
  | Ok c => match simple_create_plain_requests ex_aes c xw_qs xw_seeds xp_seed with
      | Ok (l, h, _) =>
          let buckets := buckets_of xq_sha [1] 12 1 in
          length (pq_keys l) = 2%nat /\
          forall f, all_apart ex_aes (dense_params xp_clog 12) (client_dpf (sc_dense c)) f (query_pairs l h (buckets xw_qs) (buckets xw_qs'))
      | _ => False
      end
  | _ => False
  end.
Proof.
  split; [apply xp_clog_ok; reflexivity|]. split; [exact xq_sha_ok|]. split.
  - set (r := cuckoo_client_create xq_sha ex_F xp_clog (PpCuckoo (xq_params 12)) true).
    assert (HB : match r with Ok c => match cuckoo_create_plain_requests ex_aes c xw_qs xw_seeds xp_seed with
       | Ok (l, h, _) => Nat.eqb (length (pq_keys l)) 4 && forallb (fun f => apartb ex_aes (dense_params xp_clog 12) (client_dpf (cc_dense c)) f
                           (query_pairs l h (buckets_of xq_sha [1] 12 2 xw_qs) (buckets_of xq_sha [1] 12 2 xw_qs'))) [false; true]
       | _ => false end | _ => false end = true) by (vm_compute; reflexivity).
    destruct r as [c| | |]; try discriminate. destruct (cuckoo_create_plain_requests _ _ _ _ _) as [[[l h] st]| | |]; try discriminate.
    cbn [forallb] in HB. rewrite !andb_true_iff in HB. split; [apply Nat.eqb_eq, HB|]. intros f. apply apartb_ok. destruct f; apply HB.
  - set (r := simple_client_create xq_sha ex_F xp_clog (PpSimple xw_simple) true).
    assert (HB : match r with Ok c => match simple_create_plain_requests ex_aes c xw_qs xw_seeds xp_seed with
       | Ok (l, h, _) => Nat.eqb (length (pq_keys l)) 2 && forallb (fun f => apartb ex_aes (dense_params xp_clog 12) (client_dpf (sc_dense c)) f
                           (query_pairs l h (buckets_of xq_sha [1] 12 1 xw_qs) (buckets_of xq_sha [1] 12 1 xw_qs'))) [false; true]
       | _ => false end | _ => false end = true) by (vm_compute; reflexivity).
    destruct r as [c| | |]; try discriminate. destruct (simple_create_plain_requests _ _ _ _ _) as [[[l h] st]| | |]; try discriminate.
    cbn [forallb] in HB. rewrite !andb_true_iff in HB. split; [apply Nat.eqb_eq, HB|]. intros f. apply apartb_ok. destruct f; apply HB.
Qed.
