(** C68-C70: creation of PIR clients, servers, hash tables and sparse databases. *)
From Coq Require Import List NArith ZArith Lia Bool ZifyBool ZifyNat ZifyN Permutation String.
From Verif Require Import Base ListUtil ValueTypesModel DpfModel DpfSpec DpfExamples PirDbModel PirSpec PirIpProofs PirBuildProofs PirModel
  PirProtoSpec PirProtoProofs PirDenseProofs PropertiesPir PropertiesPirProto HashModel HashSpec HashProofs SparseModel SparseSpec
  SparseDbProofs SparseProofs ChannelExample PropertiesSparse PropertiesSparseParams PirRolesModel.
Import ListNotations.
Open Scope N_scope.
Ltac Zify.zify_post_hook ::= Z.div_mod_to_equations.

(** ** C68: creation succeeds exactly with valid arguments *)

(** [r] succeeds, with a result that satisfies [good], if [valid] holds, and returns INVALID_ARGUMENT
    otherwise. *)
Definition creates {T} (valid : Prop) (r : res T) (good : T -> Prop) : Prop :=
  (valid -> exists x, r = Ok x /\ good x) /\ (~ valid -> r = Err INVALID_ARGUMENT).

(** The fields are 64-bit integers and the logarithm is computed with any faithful rounding. *)
Definition size_ok (clog : Z -> Z) (n : Z) : Prop := (n < 9223372036854775808)%Z /\ ((0 < n)%Z -> clog_ok clog n).
(** The number of elements in a configuration. *)
Definition config_ok (clog : Z -> Z) (config : pir_config) : Prop :=
  match config with CfgDense n => size_ok clog n | _ => True end.

Definition valid_dense (config : pir_config) (database : option db) : Prop :=
  exists n d, config = CfgDense n /\ database = Some d /\ (0 < n)%Z /\ Z.of_nat (db_size d) = n.
Definition valid_cuckoo (p : cuckoo_params) (database : option cuckoo_db) : Prop :=
  (0 < cp_buckets p)%Z /\ (0 < cp_functions p)%Z /\ hf_family (cp_hash p) <> 0%Z /\
  exists d, database = Some d /\ Z.of_nat (cd_bits d) = cp_buckets p.
Definition valid_simple (p : simple_params) (database : option simple_db) : Prop :=
  (0 < sp_buckets p)%Z /\ hf_family (sp_hash p) <> 0%Z /\ exists d, database = Some d /\ sd_bits d = sp_buckets p.

Lemma creates_bind : forall {S T} (v : Prop) (r : res S) good (w : Prop) (r' : res T) good',
  creates v r good -> creates w r' good' ->
  creates (v /\ w) (s <- r ;; t <- r' ;; Ok (s, t)) (fun st => good (fst st) /\ good' (snd st)).
Proof.
  intros S T v r good w r' good' [H1 H2] [H3 H4]. split.
  - intros [Hv Hw]. destruct (H1 Hv) as (s & E & G), (H3 Hw) as (t & E' & G'). rewrite E, E'. exists (s, t). auto.
  - intros Hn. destruct r as [s|e| |]; cbn [bind].
    + destruct r' as [t|e| |]; cbn [bind].
      * exfalso. assert (Hv : ~ ~ v) by (intros H; specialize (H2 H); discriminate).
        assert (Hw : ~ ~ w) by (intros H; specialize (H4 H); discriminate). tauto.
      * assert (H : ~ w) by (intros H; destruct (H3 H) as (? & ? & _); discriminate). specialize (H4 H). congruence.
      * exfalso. assert (H : ~ w) by (intros H; destruct (H3 H) as (? & ? & _); discriminate). specialize (H4 H). discriminate.
      * exfalso. assert (H : ~ w) by (intros H; destruct (H3 H) as (? & ? & _); discriminate). specialize (H4 H). discriminate.
    + assert (H : ~ v) by (intros H; destruct (H1 H) as (? & ? & _); discriminate). specialize (H2 H). congruence.
    + assert (H : ~ v) by (intros H; destruct (H1 H) as (? & ? & _); discriminate). specialize (H2 H). discriminate.
    + assert (H : ~ v) by (intros H; destruct (H1 H) as (? & ? & _); discriminate). specialize (H2 H). discriminate.
Qed.
Lemma creates_weaken : forall {T} (v : Prop) (r : res T) (good good' : T -> Prop), (forall x, good x -> good' x) -> creates v r good -> creates v r good'.
Proof. intros T v r good good' H [H1 H2]. split; [|exact H2]. intros Hv. destruct (H1 Hv) as (x & E & G). eauto. Qed.
Lemma make_leader_creates : forall s, creates (s <> None) (make_leader s) (fun r => exists f, s = Some f /\ r = Leader f).
Proof. intros [f|]; split; intros H; try congruence; cbn; eauto. exfalso. apply H. discriminate. Qed.
Lemma make_helper_creates : forall d context, creates (d <> None) (make_helper d context) (fun r => exists f, d = Some f /\ r = Helper f context).
Proof. intros [f|] context; split; intros H; try congruence; cbn; eauto. exfalso. apply H. discriminate. Qed.

Theorem C68_dense_server : forall F clog config database, config_ok clog config ->
  creates (valid_dense config database) (dense_create_plain F clog config database) (fun s => database = Some (ds_db s)).
Proof.
  intros F clog config database HC. split.
  - intros (n & d & -> & -> & Hn & Hd). destruct HC as [H63 HL]. destruct (dense_create F clog n Hn H63 (HL Hn)) as [x Hx].
    unfold dense_create_plain. cbn [bind]. assert ((0 <? n)%Z = true) as -> by lia. cbn [check bind]. rewrite Hd, Z.eqb_refl. cbn [check bind].
    rewrite Hx. eexists. split; reflexivity.
  - intros HN. unfold dense_create_plain. destruct config as [|n|f n|f n]; try reflexivity. destruct database as [d|]; [|reflexivity]. cbn [bind].
    destruct (Z.ltb_spec 0 n); [|reflexivity]. destruct (Z.eqb_spec (Z.of_nat (db_size d)) n); [|reflexivity].
    exfalso. apply HN. exists n, d. auto.
Qed.
Print Assumptions C68_dense_server.
Theorem C68_cuckoo_server : forall F clog sha p database, (forall x, List.length (sha x) = 32%nat) -> size_ok clog (cp_buckets p) ->
  creates (valid_cuckoo p database) (cuckoo_create_plain sha F clog p database)
    (fun s => database = Some (cs_db s) /\ cuckoo_public_params s = PpCuckoo p).
Proof.
  intros F clog sha p database Hsha [H63 HL]. split.
  - intros (Hn & Hk & Hf & d & -> & Hd). destruct (dense_create F clog _ Hn H63 (HL Hn)) as [x Hx].
    destruct (fingerprint_total sha (hf_seed (cp_hash p)) Hsha) as (fp & Hfp & _).
    unfold cuckoo_create_plain. assert (negb (cp_buckets p <=? 0)%Z = true) as -> by lia. assert (negb (cp_functions p <=? 0)%Z = true) as -> by lia.
    assert (negb (hf_family (cp_hash p) =? 0)%Z = true) as -> by lia. cbn [check bind]. rewrite Hd, Z.eqb_refl. cbn [check bind].
    rewrite Hx. cbn [bind]. rewrite Hfp. eexists. split; [reflexivity|]. split; reflexivity.
  - intros HN. unfold cuckoo_create_plain. destruct (Z.leb_spec (cp_buckets p) 0); [reflexivity|]. destruct (Z.leb_spec (cp_functions p) 0); [reflexivity|].
    destruct (Z.eqb_spec (hf_family (cp_hash p)) 0); [reflexivity|]. destruct database as [d|]; [|reflexivity]. cbn [negb check bind].
    destruct (Z.eqb_spec (Z.of_nat (cd_bits d)) (cp_buckets p)); [|reflexivity]. exfalso. apply HN. repeat split; try assumption. exists d. auto.
Qed.
Print Assumptions C68_cuckoo_server.
Theorem C68_simple_server : forall F clog sha p database, (forall x, List.length (sha x) = 32%nat) -> size_ok clog (sp_buckets p) ->
  creates (valid_simple p database) (simple_create_plain sha F clog p database)
    (fun s => database = Some (ss_db s) /\ simple_public_params s = PpSimple p).
Proof.
  intros F clog sha p database Hsha [H63 HL]. split.
  - intros (Hn & Hf & d & -> & Hd). destruct (dense_create F clog _ Hn H63 (HL Hn)) as [x Hx].
    destruct (fingerprint_total sha (hf_seed (sp_hash p)) Hsha) as (fp & Hfp & _).
    unfold simple_create_plain. assert (negb (sp_buckets p <=? 0)%Z = true) as -> by lia.
    assert (negb (hf_family (sp_hash p) =? 0)%Z = true) as -> by lia. cbn [check bind]. rewrite Hd, Z.eqb_refl. cbn [check bind].
    rewrite Hx. cbn [bind]. rewrite Hfp. eexists. split; [reflexivity|]. split; reflexivity.
  - intros HN. unfold simple_create_plain. destruct (Z.leb_spec (sp_buckets p) 0); [reflexivity|].
    destruct (Z.eqb_spec (hf_family (sp_hash p)) 0); [reflexivity|]. destruct database as [d|]; [|reflexivity]. cbn [negb check bind].
    destruct (Z.eqb_spec (sd_bits d) (sp_buckets p)); [|reflexivity]. exfalso. apply HN. repeat split; try assumption. exists d. auto.
Qed.
Print Assumptions C68_simple_server.
(** With a role: the function must be set, too, and is the one the server uses; a Helper decrypts with
    the context of its class. *)
Definition creates_leader {S} (valid : Prop) (r : option sender -> res (S * role)) (good : S -> Prop) : Prop :=
  forall s, creates (valid /\ s <> None) (r s) (fun x => good (fst x) /\ exists f, s = Some f /\ snd x = Leader f).
Definition creates_helper {S} (valid : Prop) (r : option decrypter -> res (S * role)) (context : bytes) (good : S -> Prop) : Prop :=
  forall d, creates (valid /\ d <> None) (r d) (fun x => good (fst x) /\ exists f, d = Some f /\ snd x = Helper f context).
Theorem C68_dense_roles : forall F clog config database, config_ok clog config ->
  creates_leader (valid_dense config database) (dense_create_leader F clog config database) (fun s => database = Some (ds_db s)) /\
  creates_helper (valid_dense config database) (dense_create_helper F clog config database) (literal "DenseDpfPirServer")
    (fun s => database = Some (ds_db s)).
Proof.
  intros F clog config database HC. split; intros f.
  - exact (creates_bind _ _ _ _ _ _ (C68_dense_server F clog config database HC) (make_leader_creates f)).
  - exact (creates_bind _ _ _ _ _ _ (C68_dense_server F clog config database HC) (make_helper_creates f _)).
Qed.
Print Assumptions C68_dense_roles.
Theorem C68_cuckoo_roles : forall F clog sha p database, (forall x, List.length (sha x) = 32%nat) -> size_ok clog (cp_buckets p) ->
  creates_leader (valid_cuckoo p database) (cuckoo_create_leader sha F clog p database)
    (fun s => database = Some (cs_db s) /\ cuckoo_public_params s = PpCuckoo p) /\
  creates_helper (valid_cuckoo p database) (cuckoo_create_helper sha F clog p database) (literal "CuckooHashingSparseDpfPirServer")
    (fun s => database = Some (cs_db s) /\ cuckoo_public_params s = PpCuckoo p).
Proof.
  intros F clog sha p database Hsha HC. split; intros f.
  - exact (creates_bind _ _ _ _ _ _ (C68_cuckoo_server F clog sha p database Hsha HC) (make_leader_creates f)).
  - exact (creates_bind _ _ _ _ _ _ (C68_cuckoo_server F clog sha p database Hsha HC) (make_helper_creates f _)).
Qed.
Print Assumptions C68_cuckoo_roles.
Theorem C68_simple_roles : forall F clog sha p database, (forall x, List.length (sha x) = 32%nat) -> size_ok clog (sp_buckets p) ->
  creates_leader (valid_simple p database) (simple_create_leader sha F clog p database)
    (fun s => database = Some (ss_db s) /\ simple_public_params s = PpSimple p) /\
  creates_helper (valid_simple p database) (simple_create_helper sha F clog p database) (literal "SimpleHashingSparseDpfPirServer")
    (fun s => database = Some (ss_db s) /\ simple_public_params s = PpSimple p).
Proof.
  intros F clog sha p database Hsha HC. split; intros f.
  - exact (creates_bind _ _ _ _ _ _ (C68_simple_server F clog sha p database Hsha HC) (make_leader_creates f)).
  - exact (creates_bind _ _ _ _ _ _ (C68_simple_server F clog sha p database Hsha HC) (make_helper_creates f _)).
Qed.
Print Assumptions C68_simple_roles.

(** Clients.  The sparse clients need a seed and the SHA-256 family, which the servers do not check. *)
Theorem C68_dense_client : forall F clog config encrypter_set, config_ok clog config ->
  creates ((exists n, config = CfgDense n /\ (0 < n)%Z) /\ encrypter_set = true) (dense_client_create F clog config encrypter_set) (fun _ => True).
Proof.
  intros F clog config encrypter_set HC. split.
  - intros ((n & -> & Hn) & ->). destruct HC as [H63 HL]. destruct (dense_create F clog n Hn H63 (HL Hn)) as [x Hx].
    unfold dense_client_create. assert ((0 <? n)%Z = true) as -> by lia. cbn [check bind]. rewrite Hx. eexists. split; [reflexivity|exact I].
  - intros HN. unfold dense_client_create. destruct config as [|n|f n|f n]; try reflexivity.
    destruct (Z.ltb_spec 0 n); [|reflexivity]. destruct encrypter_set; [|reflexivity]. exfalso. apply HN. eauto.
Qed.
Print Assumptions C68_dense_client.
Definition valid_hash (c : hash_family_config) : Prop := hf_seed c <> [] /\ hf_family c = 1%Z.
Lemma hash_family_invalid : forall sha c, ~ valid_hash c -> hash_family_from_config sha c = Err INVALID_ARGUMENT.
Proof.
  intros sha c H. unfold hash_family_from_config. destruct (hf_seed c) eqn:E; [reflexivity|]. cbn [List.length Nat.eqb negb check bind].
  destruct (Z.eqb_spec (hf_family c) 1) as [Ef|]; [|reflexivity]. exfalso. apply H. split; [rewrite E; discriminate|exact Ef].
Qed.
Lemma valid_hash_dec : forall c, valid_hash c \/ ~ valid_hash c.
Proof.
  intros c. unfold valid_hash. destruct (hf_seed c); [right; intros [H _]; congruence|].
  destruct (Z.eq_dec (hf_family c) 1); [left; split; [discriminate|assumption]|right; intros [_ H]; contradiction].
Qed.
Theorem C68_cuckoo_client : forall F clog sha params encrypter_set, (forall x, List.length (sha x) = 32%nat) ->
  (forall p, params = PpCuckoo p -> size_ok clog (cp_buckets p)) ->
  creates ((exists p, params = PpCuckoo p /\ (0 < cp_buckets p)%Z /\ (0 < cp_functions p)%Z /\ valid_hash (cp_hash p)) /\ encrypter_set = true)
    (cuckoo_client_create sha F clog params encrypter_set) (fun _ => True).
Proof.
  intros F clog sha params encrypter_set Hsha HC. split.
  - intros ((p & -> & Hn & Hk & Hs & Hf) & ->). destruct (HC p eq_refl) as [H63 HL].
    destruct (C68_dense_client F clog (CfgDense (cp_buckets p)) true (conj H63 HL)) as [HD _].
    destruct HD as (dc & Hdc & _); [eauto|]. destruct (fingerprint_total sha (hf_seed (cp_hash p)) Hsha) as (fp & Hfp & _).
    unfold cuckoo_client_create. cbn [check bind]. assert (negb (cp_buckets p <=? 0)%Z = true) as -> by lia.
    assert (negb (cp_functions p <=? 0)%Z = true) as -> by lia. rewrite (family_ok sha _ Hs Hf). cbn [check bind]. rewrite Hfp. cbn [bind].
    unfold create_hash_functions. assert (negb (cp_functions p <? 0)%Z = true) as -> by lia. cbn [check bind].
    rewrite Hdc. eexists. split; [reflexivity|exact I].
  - intros HN. unfold cuckoo_client_create. destruct encrypter_set; [|reflexivity]. destruct params as [|p|p]; try reflexivity. cbn [check bind].
    destruct (Z.leb_spec (cp_buckets p) 0); [reflexivity|]. destruct (Z.leb_spec (cp_functions p) 0); [reflexivity|]. cbn [negb check bind].
    destruct (valid_hash_dec (cp_hash p)) as [HV|HV]; [|rewrite (hash_family_invalid sha _ HV); reflexivity].
    exfalso. apply HN. split; [exists p; auto|reflexivity].
Qed.
Print Assumptions C68_cuckoo_client.
Theorem C68_simple_client : forall F clog sha params encrypter_set, (forall x, List.length (sha x) = 32%nat) ->
  (forall p, params = PpSimple p -> size_ok clog (sp_buckets p)) ->
  creates ((exists p, params = PpSimple p /\ (0 < sp_buckets p)%Z /\ valid_hash (sp_hash p)) /\ encrypter_set = true)
    (simple_client_create sha F clog params encrypter_set) (fun _ => True).
Proof.
  intros F clog sha params encrypter_set Hsha HC. split.
  - intros ((p & -> & Hn & Hs & Hf) & ->). destruct (HC p eq_refl) as [H63 HL].
    destruct (C68_dense_client F clog (CfgDense (sp_buckets p)) true (conj H63 HL)) as [HD _].
    destruct HD as (dc & Hdc & _); [eauto|]. destruct (fingerprint_total sha (hf_seed (sp_hash p)) Hsha) as (fp & Hfp & _).
    unfold simple_client_create. cbn [check bind]. assert (negb (sp_buckets p <=? 0)%Z = true) as -> by lia.
    rewrite (family_ok sha _ Hs Hf). cbn [check bind]. rewrite Hfp. cbn [bind].
    unfold create_hash_functions. change (Z.to_nat 1) with 1%nat. cbn [Z.ltb Z.compare negb check bind seq map rev app].
    rewrite Hdc. eexists. split; [reflexivity|exact I].
  - intros HN. unfold simple_client_create. destruct encrypter_set; [|reflexivity]. destruct params as [|p|p]; try reflexivity. cbn [check bind].
    destruct (Z.leb_spec (sp_buckets p) 0); [reflexivity|]. cbn [negb check bind].
    destruct (valid_hash_dec (sp_hash p)) as [HV|HV]; [|rewrite (hash_family_invalid sha _ HV); reflexivity].
    exfalso. apply HN. split; [exists p; auto|reflexivity].
Qed.
Print Assumptions C68_simple_client.

(** The hash tables, for any hash functions; a created table is empty and has [n] buckets. *)
Theorem C68_tables : forall fs n relocations limit,
  creates ((0 < n)%Z /\ (2 <= List.length fs)%nat /\ (0 <= relocations)%Z /\ (forall s, limit = Some s -> (0 <= s)%Z))
    (cuckoo_create fs n relocations limit)
    (fun c => Z.of_nat (List.length (ck_table c)) = n /\ Forall (fun slot => slot = None) (ck_table c) /\ ck_stash c = []) /\
  creates ((0 < n)%Z /\ (1 <= List.length fs)%nat /\ (forall s, limit = Some s -> (0 < s)%Z)) (simple_create fs n limit)
    (fun b => Z.of_nat (List.length (bk_table b)) = n /\ Forall (fun bucket => bucket = []) (bk_table b)) /\
  creates ((0 < n)%Z /\ (2 <= List.length fs)%nat /\ (forall s, limit = Some s -> (0 < s)%Z)) (choice_create fs n limit)
    (fun b => Z.of_nat (List.length (bk_table b)) = n /\ Forall (fun bucket => bucket = []) (bk_table b)).
Proof.
  intros fs n relocations limit.
  assert (HR : forall T (x : T), (0 < n)%Z -> Z.of_nat (List.length (repeat x (Z.to_nat n))) = n /\ Forall (fun y => y = x) (repeat x (Z.to_nat n))).
  { intros T x H. rewrite repeat_length. split; [lia|]. apply Forall_forall. intros y Hy. apply repeat_spec in Hy. exact Hy. }
  assert (HB : forall m, creates ((0 < n)%Z /\ (m <= List.length fs)%nat /\ (forall s, limit = Some s -> (0 < s)%Z)) (buckets_create m fs n limit)
    (fun b => Z.of_nat (List.length (bk_table b)) = n /\ Forall (fun bucket => bucket = []) (bk_table b))).
  { intros m. unfold buckets_create. split.
    - intros (Hn & Hf & Hl). assert (negb (n <=? 0)%Z = true) as -> by lia. assert (negb (Nat.ltb (List.length fs) m) = true) as -> by (apply negb_true_iff, Nat.ltb_ge; lia).
      assert (match limit with Some s => negb (s <=? 0)%Z | None => true end = true) as ->.
      { destruct limit as [s|]; [|reflexivity]. specialize (Hl s eq_refl). lia. }
      cbn [check bind]. eexists. split; [reflexivity|]. cbn [bk_table]. apply HR, Hn.
    - intros HN. destruct (Z.leb_spec n 0); [reflexivity|]. destruct (Nat.ltb_spec (List.length fs) m); [reflexivity|].
      cbn [negb check bind]. destruct limit as [s|]; [destruct (Z.leb_spec s 0); [reflexivity|]|]; exfalso; apply HN;
        (split; [assumption|]; split; [assumption|]; intros s' E; inversion E; subst; assumption). }
  split; [|split; apply HB].
  unfold cuckoo_create. split.
  - intros (Hn & Hf & Hr & Hl). assert (negb (n <=? 0)%Z = true) as -> by lia. assert (negb (Nat.ltb (List.length fs) 2) = true) as -> by (apply negb_true_iff, Nat.ltb_ge; lia).
    assert (negb (relocations <? 0)%Z = true) as -> by lia.
    assert (match limit with Some s => negb (s <? 0)%Z | None => true end = true) as ->.
    { destruct limit as [s|]; [|reflexivity]. specialize (Hl s eq_refl). lia. }
    cbn [check bind]. eexists. split; [reflexivity|]. cbn [ck_table ck_stash]. destruct (HR _ (@None bytes) Hn). auto.
  - intros HN. destruct (Z.leb_spec n 0); [reflexivity|]. destruct (Nat.ltb_spec (List.length fs) 2); [reflexivity|].
    destruct (Z.ltb_spec relocations 0); [reflexivity|].
    cbn [negb check bind]. destruct limit as [s|]; [destruct (Z.ltb_spec s 0); [reflexivity|]|]; exfalso; apply HN;
      (split; [assumption|]; split; [assumption|]; split; [assumption|]; intros s' E; inversion E; subst; assumption).
Qed.
Print Assumptions C68_tables.

(** ** C69: servers and clients created with default arguments work together *)

(** The Leader forwards to the Helper; the client uses the default encryption context and, in sparse
    PIR, the public parameters of the Leader. *)
Definition dense_deployment (aes : N -> N -> N) (F : fops) (clog : Z -> Z) (ch : channel) (config : pir_config)
    (t0 t1 : target) (d0 d1 : db) (queries : list Z) (seeds : nat -> N * N) (pad : bytes) : res (list bytes) :=
  '(s1, r1) <- dense_create_helper F clog config (Some d1) (Some (ch_dec ch)) ;;
  '(s0, r0) <- dense_create_leader F clog config (Some d0)
                 (Some (honest_sender (handle_request aes (ch_par ch) (dense_handle_plain aes t1 s1) r1))) ;;
  c <- dense_client_create F clog config true ;;
  '(req, state) <- create_request (ch_ser ch) (ch_enc ch) dense_client_context (dense_create_plain_requests aes c queries seeds pad) ;;
  response <- handle_request aes (ch_par ch) (dense_handle_plain aes t0 s0) r0 req ;;
  dense_handle_response aes response state.
Definition cuckoo_deployment (aes : N -> N -> N) (F : fops) (clog : Z -> Z) (sha : bytes -> bytes) (ch : channel) (p : cuckoo_params)
    (t0 t1 : target) (d0 d1 : cuckoo_db) (queries : list bytes) (seeds : nat -> N * N) (pad : bytes) : res (list (option bytes)) :=
  '(s1, r1) <- cuckoo_create_helper sha F clog p (Some d1) (Some (ch_dec ch)) ;;
  '(s0, r0) <- cuckoo_create_leader sha F clog p (Some d0)
                 (Some (honest_sender (handle_request aes (ch_par ch) (cuckoo_handle_plain aes t1 s1) r1))) ;;
  c <- cuckoo_client_create sha F clog (cuckoo_public_params s0) true ;;
  '(req, state) <- create_request (ch_ser ch) (ch_enc ch) cuckoo_client_context (cuckoo_create_plain_requests aes c queries seeds pad) ;;
  response <- handle_request aes (ch_par ch) (cuckoo_handle_plain aes t0 s0) r0 req ;;
  cuckoo_handle_response aes c response state.
Definition simple_deployment (aes : N -> N -> N) (F : fops) (clog : Z -> Z) (sha : bytes -> bytes) (ch : channel) (p : simple_params)
    (t0 t1 : target) (d0 d1 : simple_db) (queries : list bytes) (seeds : nat -> N * N) (pad : bytes) : res (list (option bytes)) :=
  '(s1, r1) <- simple_create_helper sha F clog p (Some d1) (Some (ch_dec ch)) ;;
  '(s0, r0) <- simple_create_leader sha F clog p (Some d0)
                 (Some (honest_sender (handle_request aes (ch_par ch) (simple_handle_plain aes t1 s1) r1))) ;;
  c <- simple_client_create sha F clog (simple_public_params s0) true ;;
  '(req, state) <- create_request (ch_ser ch) (ch_enc ch) simple_client_context (simple_create_plain_requests aes c queries seeds pad) ;;
  response <- handle_request aes (ch_par ch) (simple_handle_plain aes t0 s0) r0 req ;;
  simple_handle_response aes response state.

(** The serialization can be parsed and the ciphertexts for one context can be decrypted. *)
Definition channel_for (ch : channel) (context : bytes) : Prop :=
  (forall h, ch_par ch (ch_ser ch h) = Some h) /\
  (forall m, exists e, ch_enc ch m context = Ok e /\ ch_dec ch e context = Ok m).
Definition at_context (ch : channel) (context : bytes) : channel :=
  {| ch_ser := ch_ser ch; ch_par := ch_par ch; ch_enc := ch_enc ch; ch_dec := ch_dec ch; ch_context := context |}.

Theorem C69_dense : forall aes F clog records t0 t1 db0 db1 queries seeds pad ch,
  let n := Z.of_nat (List.length records) in
  records_ok records -> clog_ok clog n -> target_ok t0 -> target_ok t1 ->
  dense_fits clog n t0 -> dense_fits clog n t1 -> (n < 2147483648)%Z ->
  holds db0 records -> holds db1 records ->
  queries <> [] -> Forall (fun q => 0 <= q < n)%Z queries -> List.length pad = 16%nat ->
  channel_for ch (literal "DenseDpfPirServer") ->
  dense_deployment aes F clog ch (CfgDense n) t0 t1 db0 db1 queries seeds pad
  = Ok (map (fun q => zero_padded (longest records) (nth (Z.to_nat q) records [])) queries).
Proof.
  intros aes F clog records t0 t1 db0 db1 queries seeds pad ch n HR HL T0 T1 F0 F1 Hn H0 H1 Hq HQ Hpad [HP HC].
  destruct (C32_leader_helper_partial aes F clog records t0 t1 db0 db1 queries seeds pad (ch_ser ch) (ch_par ch) (ch_enc ch) (ch_dec ch) _
    HR HL T0 T1 F0 F1 Hn H0 H1 Hq HQ Hpad HP HC) as (c & s0 & s1 & req & state & resp & E1 & E2 & E3 & E4 & E5 & E6).
  fold n in E1, E2, E3. unfold dense_deployment, dense_create_helper, dense_create_leader, make_helper, make_leader.
  rewrite E3. cbn [bind]. rewrite E2. cbn [bind]. rewrite E1. cbn [bind]. unfold dense_client_context, dense_context. rewrite E4. cbn [bind].
  rewrite E5. cbn [bind]. exact E6.
Qed.
Print Assumptions C69_dense.

(** The sparse protocols return whatever [cuckoo_exchange] and [simple_exchange] return, of which C39,
    C40 and C41 speak. *)
Theorem C69_cuckoo : forall aes F clog sha ch p t0 t1 d0 d1 queries seeds pad answers,
  cuckoo_exchange aes F clog sha (at_context ch (literal "CuckooHashingSparseDpfPirServer")) p t0 t1 d0 d1 queries seeds pad = Ok answers ->
  cuckoo_deployment aes F clog sha ch p t0 t1 d0 d1 queries seeds pad = Ok answers.
Proof.
  intros aes F clog sha ch p t0 t1 d0 d1 queries seeds pad answers H. unfold cuckoo_exchange in H. bind_inv H. bind_inv H. bind_inv H.
  cbn [ch_ser ch_par ch_enc ch_dec ch_context at_context] in H.
  assert (HP : cs_params a0 = p).
  { unfold cuckoo_create_plain in Hb0. cbn [bind] in Hb0. bind_inv Hb0. bind_inv Hb0. bind_inv Hb0. bind_inv Hb0. bind_inv Hb0. bind_inv Hb0. inversion Hb0. reflexivity. }
  unfold cuckoo_deployment, cuckoo_create_helper, cuckoo_create_leader, make_helper, make_leader, cuckoo_public_params.
  rewrite Hb1. cbn [bind]. rewrite Hb0. cbn [bind]. rewrite HP, Hb. cbn [bind]. exact H.
Qed.
Print Assumptions C69_cuckoo.
Theorem C69_simple : forall aes F clog sha ch p t0 t1 d0 d1 queries seeds pad answers,
  simple_exchange aes F clog sha (at_context ch (literal "SimpleHashingSparseDpfPirServer")) p t0 t1 d0 d1 queries seeds pad = Ok answers ->
  simple_deployment aes F clog sha ch p t0 t1 d0 d1 queries seeds pad = Ok answers.
Proof.
  intros aes F clog sha ch p t0 t1 d0 d1 queries seeds pad answers H. unfold simple_exchange in H. bind_inv H. bind_inv H. bind_inv H.
  cbn [ch_ser ch_par ch_enc ch_dec ch_context at_context] in H.
  assert (HP : ss_params a0 = p).
  { unfold simple_create_plain in Hb0. cbn [bind] in Hb0. bind_inv Hb0. bind_inv Hb0. bind_inv Hb0. bind_inv Hb0. bind_inv Hb0. inversion Hb0. reflexivity. }
  unfold simple_deployment, simple_create_helper, simple_create_leader, make_helper, make_leader, simple_public_params.
  rewrite Hb1. cbn [bind]. rewrite Hb0. cbn [bind]. rewrite HP, Hb. cbn [bind]. exact H.
Qed.
Print Assumptions C69_simple.
(** For instance, simple hashing returns the values first inserted. *)
Theorem C69_simple_answers : forall aes F clog sha ch ops0 ops1 a0 a1 d0 d1 t0 t1 queries seeds pad,
  let g := gsrun ops0 in let p := gs_params g in let kvs := gs_records g in
  (forall x, List.length (sha x) = 32%nat) -> alloc_ok a0 -> alloc_ok a1 -> channel_for ch (literal "SimpleHashingSparseDpfPirServer") ->
  Forall (fun kv => is_bytes (fst kv) /\ is_bytes (snd kv)) kvs -> kvs <> [] ->
  gs_params (gsrun ops1) = p -> gs_records (gsrun ops1) = kvs ->
  simple_build sha a0 (srun ops0) = Ok d0 -> simple_build sha a1 (srun ops1) = Ok d1 ->
  (0 < sp_buckets p < 2147483648)%Z -> clog_ok clog (sp_buckets p) -> target_ok t0 -> target_ok t1 ->
  dense_fits clog (sp_buckets p) t0 -> dense_fits clog (sp_buckets p) t1 ->
  queries <> [] -> List.length pad = 16%nat ->
  simple_deployment aes F clog sha ch p t0 t1 d0 d1 queries seeds pad = Ok (map (first_value kvs) queries).
Proof.
  intros aes F clog sha ch ops0 ops1 a0 a1 d0 d1 t0 t1 queries seeds pad g p kvs H1 H2 H3 H4 H5 H6 H7 H8 H9 H10 H11 H12 H13 H14 H15 H16 H17 H18.
  apply C69_simple. apply (C41_partial aes F clog sha _ ops0 ops1 a0 a1); assumption.
Qed.
Print Assumptions C69_simple_answers.
(** The contexts differ, so that a request for one kind of server is not decrypted by another. *)
Theorem C69_contexts : NoDup [dense_client_context; cuckoo_client_context; simple_client_context].
Proof. repeat constructor; cbn [In]; intros H; repeat (destruct H as [H|H]; [discriminate|]); exact H. Qed.
Print Assumptions C69_contexts.

(** ** C70: the outcome of Build of the sparse databases *)

Definition valid_keys (kvs : list (bytes * bytes)) : Prop := Forall (fun kv => fst kv <> []) kvs.
Lemma valid_keys_dec : forall kvs, valid_keys kvs \/ Exists (fun kv => fst kv = []) kvs.
Proof.
  induction kvs as [|[[|x k] v] kvs IH]; [left; constructor|right; left; reflexivity|].
  destruct IH as [IH|IH]; [left; constructor; [discriminate|exact IH]|right; right; exact IH].
Qed.
Lemma hash_keys_empty : forall fs n r rnd records c,
  Forall (hashes_into n) fs -> (forall k, (rnd k < List.length fs)%nat) -> (0 < n)%Z -> cuckoo_inv fs n r None c ->
  Exists (fun kv => fst kv = []) records -> cuckoo_hash_keys rnd records c = Err INVALID_ARGUMENT.
Proof.
  intros fs n r rnd records c Hf Hr Hn HI HE. revert c HI. induction records as [|[[|x k] v] records IH]; intros c HI; [inversion HE|reflexivity|].
  - destruct (hash_keys_ok fs n r rnd [(x :: k, v)] c Hf Hr Hn HI) as (c' & H1 & H2 & _).
    { constructor; [discriminate|constructor]. }
    unfold cuckoo_hash_keys in *. cbn [foldM] in *. bind_inv H1. rewrite Hb. cbn [bind]. inversion H1; subst.
    apply IH; [|exact H2]. inversion HE as [? ? HX|]; subst; [discriminate HX|assumption].
Qed.

(** Parameters for which a table can be made: the numbers are converted to int. *)
Definition cuckoo_buildable (p : cuckoo_params) (kvs : list (bytes * bytes)) : Prop :=
  (0 < cp_buckets p)%Z /\ (0 < to_int32 (cp_buckets p))%Z /\ (2 <= cp_functions p)%Z /\ valid_hash (cp_hash p) /\ valid_keys kvs /\
  (0 <= to_int32 (Z.of_nat (List.length (distinct_keys kvs))))%Z.

(** For every history of calls on the builder, random choices and addresses of the buffers: a second
    Build fails until Clear, invalid parameters or an empty key are reported, and otherwise Build
    succeeds unless the number of buckets does not fit into an int. *)
Theorem C70_cuckoo : forall sha rnd ak av ops,
  let g := gcrun ops in let p := gs_params g in let kvs := gs_records g in
  (forall x, List.length (sha x) = 32%nat) -> ((0 < cp_functions p)%Z -> forall i, (rnd i < Z.to_nat (cp_functions p))%nat) ->
  alloc_ok ak -> alloc_ok av -> total_bytes kvs + 16 * Z.to_N (cp_buckets p) < 2 ^ 62 ->
  let r := cuckoo_build sha rnd ak av (crun ops) in
  (gs_built g = true -> r = Err FAILED_PRECONDITION) /\
  (gs_built g = false -> ~ cuckoo_buildable p kvs -> r = Err INVALID_ARGUMENT) /\
  (gs_built g = false -> cuckoo_buildable p kvs -> cp_buckets p <> to_int32 (cp_buckets p) -> r = Err INTERNAL) /\
  (gs_built g = false -> cuckoo_buildable p kvs -> cp_buckets p = to_int32 (cp_buckets p) ->
   exists d, r = Ok d /\ cd_size d = Z.of_nat (List.length (distinct_keys kvs)) /\ Z.of_nat (cd_bits d) = cp_buckets p).
Proof.
  intros sha rnd ak av ops g p kvs Hsha Hrnd Hak Hav Hsz r. pose proof (crun_sim ops) as Hsim. fold g in Hsim.
  assert (HOK : gs_built g = false -> cuckoo_buildable p kvs -> exists d, r = (if (to_int32 (cp_buckets p) =? cp_buckets p)%Z then Ok d else Err INTERNAL) /\
    cd_size d = Z.of_nat (List.length (distinct_keys kvs)) /\ Z.of_nat (cd_bits d) = to_int32 (cp_buckets p)).
  { intros Hnb (H1 & H2 & H3 & [H4 H5] & H6 & H7).
    assert (HP : params_ok g) by (unfold params_ok; fold p kvs; auto 8).
    destruct (build_total sha rnd ak av _ g Hsha Hsim Hnb (Hrnd ltac:(lia)) Hak Hav HP Hsz) as (d & c & _ & E & _ & _ & _ & Hs & Hb).
    exists d. auto. }
  split; [|split; [|split]].
  - intros Hb. unfold r, cuckoo_build. rewrite (cs_b _ _ Hsim), Hb. reflexivity.
  - intros Hnb HN. unfold r, cuckoo_build. rewrite (cs_b _ _ Hsim), Hnb. unfold cuckoo_build_db.
    rewrite (cs_p _ _ Hsim), (cs_r _ _ Hsim (eq_trans (cs_b _ _ Hsim) Hnb)). fold p kvs.
    destruct (Z.leb_spec (cp_buckets p) 0) as [|Hp]; [reflexivity|]. destruct (Z.leb_spec (cp_functions p) 0) as [|Hk]; [reflexivity|].
    cbn [negb check bind]. destruct (valid_hash_dec (cp_hash p)) as [HV|HV]; [|rewrite (hash_family_invalid sha _ HV); reflexivity].
    rewrite (family_ok sha _ (proj1 HV) (proj2 HV)). cbn [bind]. unfold cuckoo_create_family, create_hash_functions.
    assert (negb (cp_functions p <? 0)%Z = true) as -> by lia. cbn [check bind].
    set (fs := map _ _).
    assert (Hlen : List.length fs = Z.to_nat (cp_functions p)) by (unfold fs; rewrite map_length, seq_length; reflexivity).
    assert (HLm : List.length (map_of kvs) = List.length (distinct_keys kvs)).
    { rewrite <- (map_length fst). apply Permutation_length, map_of_keys. }
    rewrite HLm. set (n := to_int32 (cp_buckets p)) in *. set (rl := to_int32 (Z.of_nat (List.length (distinct_keys kvs)))) in *.
    destruct (C68_tables fs n rl None) as ([HT1 HT2] & _).
    assert (Hdec : ((0 < n)%Z /\ (2 <= List.length fs)%nat /\ (0 <= rl)%Z) \/ ~ ((0 < n)%Z /\ (2 <= List.length fs)%nat /\ (0 <= rl)%Z)) by lia.
    destruct Hdec as [(D1 & D2 & D3)|D].
    + destruct HT1 as (c & Ec & _); [repeat split; try assumption; intros s E; discriminate|].
      rewrite Ec. cbn [bind]. destruct (cuckoo_create_inv _ _ _ _ _ Ec) as (I & _).
      assert (HE : Exists (fun kv => fst kv = []) (map_of kvs)).
      { destruct (valid_keys_dec kvs) as [Hv|Hv].
        - exfalso. apply HN. unfold cuckoo_buildable. fold n rl. repeat split; try assumption; try apply HV. lia.
        - apply Exists_exists in Hv. destruct Hv as ([k v] & Hin & Hk0). cbn [fst] in Hk0. subst k.
          assert (Hd : In [] (distinct_keys kvs)) by (unfold distinct_keys; apply nodup_In, in_map_iff; exists ([], v); auto).
          apply (Permutation_in _ (Permutation_sym (map_of_keys kvs))) in Hd. apply in_map_iff in Hd. destruct Hd as (kv & E1 & E2).
          apply Exists_exists. exists kv. auto. }
      assert (HR : (n < 2147483648)%Z) by (unfold n, to_int32; clear; lia).
      rewrite (hash_keys_empty fs n rl rnd _ c); [reflexivity| | |exact D1|exact I|exact HE].
      * apply functions_into; [exact Hsha|lia].
      * intros i. eapply Nat.lt_le_trans; [apply Hrnd; lia|]. apply Nat.eq_le_incl. symmetry. exact Hlen.
    + rewrite HT2; [reflexivity|]. intros (X1 & X2 & X3 & _). apply D. auto.
  - intros Hnb HB Hne. destruct (HOK Hnb HB) as (d & E & _). rewrite E. destruct (Z.eqb_spec (to_int32 (cp_buckets p)) (cp_buckets p)); [congruence|reflexivity].
  - intros Hnb HB He. destruct (HOK Hnb HB) as (d & E & H1 & H2). rewrite <- He, Z.eqb_refl in E. rewrite <- He in H2. exists d. auto.
Qed.
Print Assumptions C70_cuckoo.

Lemma distribute_empty : forall sha seed n kvs protos, (forall x, List.length (sha x) = 32%nat) -> (0 < n < 2147483648)%Z ->
  List.length protos = Z.to_nat n -> Exists (fun kv => fst kv = []) kvs ->
  simple_distribute (sha256_hash_function sha (seed ++ str_cat 0)) n kvs protos = Err INVALID_ARGUMENT.
Proof.
  intros sha seed n kvs protos Hsha Hn HL HE. revert protos HL. induction kvs as [|[[|x k] v] kvs IH]; intros protos HL; [inversion HE|reflexivity|].
  destruct (distribute_ok sha seed n Hsha Hn [(x :: k, v)] protos HL) as (protos' & H1 & H2 & _).
  { constructor; [discriminate|constructor]. }
  unfold simple_distribute in *. cbn [foldM] in *. bind_inv H1. rewrite Hb. cbn [bind]. inversion H1; subst.
  apply IH; [inversion HE as [? ? HX|]; subst; [discriminate HX|assumption]|]. rewrite H2. exact HL.
Qed.
Lemma serialize_too_big : forall protos d, Exists (fun pr => 2 ^ 31 <= N.of_nat (List.length (serialize_bucket pr))) protos ->
  foldM (fun d proto => _ <- check (N.of_nat (List.length (serialize_bucket proto)) <? 2 ^ 31) INTERNAL ;;
                        Ok (insert d (serialize_bucket proto))) protos d = Err INTERNAL.
Proof.
  intros protos d HE. revert d. induction HE as [pr protos H|pr protos H IH]; intros d; cbn [foldM].
  - destruct (N.ltb_spec (N.of_nat (List.length (serialize_bucket pr))) (2 ^ 31)) as [C|_]; [|reflexivity]. exfalso. apply N.lt_nge in C. contradiction.
  - destruct (N.of_nat (List.length (serialize_bucket pr)) <? 2 ^ 31); [|reflexivity]. cbn [check bind]. apply IH.
Qed.

Definition simple_buildable (p : simple_params) (kvs : list (bytes * bytes)) : Prop :=
  (0 < to_int32 (sp_buckets p))%Z /\ valid_hash (sp_hash p) /\ valid_keys kvs.
(** The parameters that Build uses: the number of buckets is converted to int. *)
Definition simple_used (p : simple_params) : simple_params := {| sp_hash := sp_hash p; sp_buckets := to_int32 (sp_buckets p) |}.

Theorem C70_simple : forall sha a ops,
  let g := gsrun ops in let p := gs_params g in let kvs := gs_records g in
  (forall x, List.length (sha x) = 32%nat) -> alloc_ok a ->
  let r := simple_build sha a (srun ops) in
  (gs_built g = true -> r = Err FAILED_PRECONDITION) /\
  (gs_built g = false -> ~ simple_buildable p kvs -> r = Err INVALID_ARGUMENT) /\
  (gs_built g = false -> simple_buildable p kvs ->
   (exists i, (i < Z.to_nat (to_int32 (sp_buckets p)))%nat /\ 2 ^ 31 <= bucket_size sha (simple_used p) kvs i) -> r = Err INTERNAL) /\
  (gs_built g = false -> simple_buildable p kvs ->
   (forall i, (i < Z.to_nat (to_int32 (sp_buckets p)))%nat -> bucket_size sha (simple_used p) kvs i < 2 ^ 31) ->
   exists d, r = Ok d /\ sd_bits d = to_int32 (sp_buckets p) /\ sd_size d = to_int32 (Z.of_nat (List.length kvs))).
Proof.
  intros sha a ops g p kvs Hsha Ha r. pose proof (srun_sim ops) as Hsim. fold g in Hsim.
  set (n := to_int32 (sp_buckets p)) in *. assert (HR : (n < 2147483648)%Z) by (unfold n, to_int32; clear; lia).
  split; [|split; [|split]].
  - intros Hb. unfold r, simple_build. rewrite (ss_b _ _ Hsim), Hb. reflexivity.
  - intros Hnb HN. unfold r, simple_build. rewrite (ss_b _ _ Hsim), Hnb. unfold simple_build_db.
    rewrite (ss_p _ _ Hsim), (ss_r _ _ Hsim (eq_trans (ss_b _ _ Hsim) Hnb)). fold p kvs n.
    destruct (Z.leb_spec n 0) as [|Hn]; [reflexivity|]. cbn [negb check bind].
    destruct (valid_hash_dec (sp_hash p)) as [HV|HV]; [|rewrite (hash_family_invalid sha _ HV); reflexivity].
    rewrite (family_ok sha _ (proj1 HV) (proj2 HV)). cbn [bind]. unfold create_hash_functions.
    change (Z.to_nat 1) with 1%nat. change (1 <? 0)%Z with false. cbn [negb check bind seq map at_or_ub nth_error].
    destruct (valid_keys_dec kvs) as [Hv|Hv]; [exfalso; apply HN; split; [exact Hn|split; assumption]|].
    change (N.of_nat 0) with 0. unfold wrap_with_seed, sha256_hash_family.
    rewrite (distribute_empty sha (hf_seed (sp_hash p)) n kvs _ Hsha (conj Hn HR) (repeat_length _ _) Hv). reflexivity.
  - intros Hnb (Hn & [HV1 HV2] & Hv) (i & Hi & Hbig). unfold r, simple_build. rewrite (ss_b _ _ Hsim), Hnb. unfold simple_build_db.
    rewrite (ss_p _ _ Hsim), (ss_r _ _ Hsim (eq_trans (ss_b _ _ Hsim) Hnb)). fold p kvs n.
    assert (negb (n <=? 0)%Z = true) as -> by lia. cbn [check bind]. rewrite (family_ok sha _ HV1 HV2). cbn [bind]. unfold create_hash_functions.
    change (Z.to_nat 1) with 1%nat. change (1 <? 0)%Z with false. cbn [negb check bind seq map at_or_ub nth_error].
    change (N.of_nat 0) with 0. unfold wrap_with_seed, sha256_hash_family.
    destruct (distribute_ok sha (hf_seed (sp_hash p)) n Hsha (conj Hn HR) kvs (repeat ([], []) (Z.to_nat n)) (repeat_length _ _) Hv) as (protos & EP & LP & NP).
    rewrite EP. cbn [bind]. rewrite serialize_too_big; [reflexivity|].
    specialize (NP i ([], [])). rewrite nth_error_repeat in NP by exact Hi. specialize (NP eq_refl).
    apply Exists_exists. eexists. split; [exact (nth_error_In _ _ NP)|]. exact Hbig.
  - intros Hnb (Hn & [HV1 HV2] & Hv) Hsz.
    destruct (simple_build_total sha a _ g Hsha Hsim Hnb Ha) as (d & E & _ & H1 & H2).
    + unfold simple_params_ok. fold p n kvs. auto.
    + unfold simple_records. fold p kvs n. rewrite Forall_map. apply Forall_forall. intros i Hi. apply in_seq in Hi. apply Hsz. lia.
    + exists d. auto.
Qed.
Print Assumptions C70_simple.

(** ** Examples *)

Example C68_nonvacuous :
  match xq_db, xr_db with
  | Ok d, Ok d' =>
      valid_cuckoo (xq_params 4) (Some d) /\ ~ valid_cuckoo (xq_params 4) None /\ ~ valid_cuckoo (xq_params 5) (Some d) /\
      valid_simple xr_params (Some d') /\ ~ valid_simple {| sp_hash := sp_hash xr_params; sp_buckets := 4 |} (Some d') /\
      valid_dense (CfgDense 4) (Some (cd_keys d)) /\ ~ valid_dense (CfgDense 4) None /\ ~ valid_dense (CfgDense 3) (Some (cd_keys d)) /\
      ~ valid_dense (CfgSimple 1 4) (Some (cd_keys d)) /\
      (forall n, (n < 1000)%Z -> size_ok xp_clog n) /\ valid_hash (cp_hash (xq_params 4)) /\ ~ valid_hash {| hf_family := 2; hf_seed := [1] |}
  | _, _ => False
  end.
Proof.
  unfold xq_db, xr_db. split; [split; [reflexivity|split; [reflexivity|split; [discriminate|eexists; split; reflexivity]]]|].
  split; [intros (_ & _ & _ & d & H & _); discriminate|].
  split; [intros (_ & _ & _ & d & H & H'); injection H as <-; vm_compute in H'; discriminate|].
  split; [split; [reflexivity|split; [discriminate|eexists; split; reflexivity]]|].
  split; [intros (_ & _ & d & H & H'); injection H as <-; vm_compute in H'; discriminate|].
  split; [do 2 eexists; repeat split|].
  split; [intros (n & d & _ & H & _); discriminate|].
  split; [intros (n & d & H & H' & _ & H''); injection H as <-; injection H' as <-; vm_compute in H''; discriminate|].
  split; [intros (n & d & H & _); discriminate|].
  split; [intros n Hn; split; [lia|apply xp_clog_ok]|].
  split; [split; [discriminate|reflexivity]|]. intros [_ H]. discriminate.
Qed.
(** A channel for every context, and the answers of a deployment by C69_simple_answers. *)
Example C69_nonvacuous : (forall context, channel_for xq_channel context) /\
  match xr_db with
  | Ok d => simple_deployment ex_aes ex_F xp_clog xq_sha xq_channel xr_params xt_t xp_scalar d d [[97]; [97; 0]; [98; 98]] xp_seeds xp_seed
            = Ok [Some [5; 0; 0]; Some []; None]
  | _ => False
  end.
Proof.
  assert (HC : forall context, channel_for xq_channel context) by (intros context; split; [exact (proj1 xq_channel_ok)|intros m; apply ch_cipher]).
  split; [exact HC|]. destruct C41_nonvacuous as (H1 & H2 & _ & H4 & H5 & H6 & H7). destruct xr_db as [d|e| |]; try contradiction.
  pose proof (C69_simple_answers ex_aes ex_F xp_clog xq_sha xq_channel xr_ops xr_ops xa_alloc xa_alloc d d xt_t xp_scalar
    [[97]; [97; 0]; [98; 98]] xp_seeds xp_seed xq_sha_ok xa_alloc_ok xa_alloc_ok (HC _) H4) as HX.
  rewrite H2 in HX. etransitivity; [apply HX|reflexivity]; try reflexivity; try assumption; try discriminate.
  - split; reflexivity.
  - exact xt_t_ok.
  - exact xp_scalar_ok.
Qed.
(** Histories with each outcome: built twice, one hash function, an empty key, more buckets than an int
    can count, and a valid one. *)
Example C70_nonvacuous :
  let ok := [CSetParams (xq_params 4); CInsert ([97; 98], [1; 2; 3]); CInsert ([99], [4])] in
  gs_built (gcrun (ok ++ [CBuild xq_left])) = true /\
  (gs_built (gcrun ok) = false /\ cuckoo_buildable (gs_params (gcrun ok)) (gs_records (gcrun ok)) /\ to_int32 4 = 4%Z) /\
  ~ cuckoo_buildable {| cp_hash := cp_hash (xq_params 4); cp_functions := 1; cp_buckets := 4 |} (gs_records (gcrun ok)) /\
  ~ cuckoo_buildable (xq_params 4) (gs_records (gcrun (ok ++ [CInsert ([], [7])]))) /\
  (cuckoo_buildable (xq_params 4294967300) (gs_records (gcrun ok)) /\ to_int32 4294967300 <> 4294967300%Z) /\
  simple_buildable xr_params (gs_records (gsrun xr_ops)) /\
  (forall i, (i < 3)%nat -> bucket_size xq_sha (simple_used xr_params) (gs_records (gsrun xr_ops)) i < 2 ^ 31) /\
  (exists kvs, simple_buildable xr_params kvs /\ 2 ^ 31 <= bucket_size xq_sha (simple_used xr_params) kvs 2).
Proof.
  assert (HB : forall n, (0 < n)%Z -> (0 < to_int32 n)%Z -> cuckoo_buildable (xq_params n) [([97; 98], [1; 2; 3]); ([99], [4])]).
  { intros n H1 H2. repeat split; try assumption; try discriminate; try (repeat constructor; discriminate). }
  split; [reflexivity|]. split; [split; [reflexivity|split; [apply HB; reflexivity|reflexivity]]|].
  split; [intros (_ & _ & H & _); vm_compute in H; apply H; reflexivity|].
  split; [intros (_ & _ & _ & _ & H & _); apply Forall_inv_tail, Forall_inv_tail, Forall_inv in H; apply H; reflexivity|].
  split; [split; [apply HB; reflexivity|discriminate]|].
  split; [repeat split; try discriminate; repeat constructor; discriminate|].
  split.
  { intros [|[|[|i]]] Hi; [vm_compute; reflexivity..|lia]. }
  assert (HV : exists v : bytes, 2 ^ 31 <= N.of_nat (List.length v)).
  { exists (repeat 0 (N.to_nat (2 ^ 31))). rewrite repeat_length, N2Nat.id. apply N.le_refl. }
  destruct HV as [v Hv]. exists [([97], v)]. split; [repeat split; try discriminate; repeat constructor; discriminate|].
  unfold bucket_size. cbn [filter fst]. assert (Nat.eqb (bucket xq_sha (hf_seed (sp_hash (simple_used xr_params))) (sp_buckets (simple_used xr_params)) [97] 0) 2 = true) as -> by (vm_compute; reflexivity).
  cbn [map fst snd]. unfold serialize_bucket. cbn [fst snd map concat flat_map app]. unfold encode_field. repeat rewrite ?app_length, ?app_nil_r; cbn [List.length].
  rewrite !app_length. clear - Hv. revert Hv. generalize (2 ^ 31). unfold bytes. intros k Hv.
  generalize (List.length (varint_encode 10 (N.of_nat (List.length v)))). intros a. generalize (List.length (varint_encode 10 (N.of_nat 1))). intros b. lia.
Qed.
