(** C56: the parameters returned by GenerateParams can be used. *)
From Coq Require Import List NArith ZArith Lia Bool ZifyBool ZifyNat ZifyN.
From Verif Require Import Base ListUtil ValueTypesModel DpfModel DpfSpec DpfExamples PirDbModel PirSpec PirIpProofs PirBuildProofs PirModel
  PirProtoSpec PirProtoProofs PirDenseProofs PropertiesPir PropertiesPirProto HashModel HashSpec HashProofs SparseModel SparseSpec
  SparseDbProofs SparseProofs PropertiesSparse.
Import ListNotations.
Open Scope N_scope.
Ltac Zify.zify_post_hook ::= Z.div_mod_to_equations.

(** What the owner of a database wants of cuckoo parameters [p], for a SHA-256 function [sha]: Build
    succeeds on every builder that got [p] and any pairs with non-empty keys, a server can be
    created from the result, a client can be created from [p], and both have the same fingerprint.  The
    conditions on the builder say that it has not been used and that the pairs fit into memory. *)
Definition cuckoo_usable (F : fops) (clog : Z -> Z) (sha : bytes -> bytes) (p : cuckoo_params) : Prop :=
  exists c, cuckoo_client_create sha F clog (PpCuckoo p) true = Ok c /\
  forall rnd ak av ops, gs_params (gcrun ops) = p -> gs_built (gcrun ops) = false ->
    Forall (fun kv => fst kv <> []) (gs_records (gcrun ops)) ->
    (Z.of_nat (length (distinct_keys (gs_records (gcrun ops)))) < 2147483648)%Z ->
    total_bytes (gs_records (gcrun ops)) + 16 * Z.to_N (cp_buckets p) < 2 ^ 62 ->
    (forall i, (rnd i < Z.to_nat (cp_functions p))%nat) -> alloc_ok ak -> alloc_ok av ->
    exists d s, cuckoo_build sha rnd ak av (crun ops) = Ok d /\
      cuckoo_create_plain sha F clog p (Some d) = Ok s /\ to_uint32 (cs_fingerprint s) = to_uint32 (cc_fingerprint c).
Definition simple_usable (F : fops) (clog : Z -> Z) (sha : bytes -> bytes) (p : simple_params) : Prop :=
  exists c, simple_client_create sha F clog (PpSimple p) true = Ok c /\
  forall a ops, gs_params (gsrun ops) = p -> gs_built (gsrun ops) = false ->
    Forall (fun kv => fst kv <> []) (gs_records (gsrun ops)) -> alloc_ok a ->
    (forall i, (i < Z.to_nat (sp_buckets p))%nat -> bucket_size sha p (gs_records (gsrun ops)) i < 2 ^ 31) ->
    exists d s, simple_build sha a (srun ops) = Ok d /\
      simple_create_plain sha F clog p (Some d) = Ok s /\ to_uint32 (ss_fingerprint s) = to_uint32 (sc_fingerprint c).

Lemma dense_client_ok : forall F clog n, (0 < n < 2147483648)%Z -> clog_ok clog n ->
  exists d, create_incremental F (dense_params clog n) = Ok d /\
    dense_client_create F clog (CfgDense n) true = Ok {| dc_dpf := d; dc_size := n |}.
Proof.
  intros F clog n Hn HL. destruct (dense_create F clog n ltac:(lia) ltac:(lia) HL) as [d Hd]. exists d. split; [exact Hd|].
  unfold dense_client_create. destruct (Z.ltb_spec 0 n); [|lia]. cbn [check bind]. rewrite Hd. cbn [bind]. rewrite to_int32_id by lia. reflexivity.
Qed.
Lemma family_ok : forall sha c, hf_seed c <> [] -> hf_family c = 1%Z ->
  hash_family_from_config sha c = Ok (wrap_with_seed (sha256_hash_family sha) (hf_seed c)).
Proof. intros sha c Hs Hf. unfold hash_family_from_config. rewrite Hf. destruct (hf_seed c); [congruence|]. reflexivity. Qed.

Lemma cuckoo_params_usable : forall F clog sha p, (forall x, length (sha x) = 32%nat) ->
  (0 < cp_buckets p < 2147483648)%Z -> (2 <= cp_functions p)%Z -> hf_seed (cp_hash p) <> [] -> hf_family (cp_hash p) = 1%Z ->
  clog_ok clog (cp_buckets p) -> cuckoo_usable F clog sha p.
Proof.
  intros F clog sha p Hsha Hn Hk Hs Hf HL.
  destruct (dense_client_ok F clog (cp_buckets p) Hn HL) as (d & Hd & Hc).
  destruct (fingerprint_total sha (hf_seed (cp_hash p)) Hsha) as (fp & Hfp & _).
  eexists. split.
  { unfold cuckoo_client_create. cbn [check bind].
    assert (negb (cp_buckets p <=? 0)%Z = true) as -> by lia. assert (negb (cp_functions p <=? 0)%Z = true) as -> by lia.
    cbn [check bind]. rewrite family_ok by assumption. cbn [bind]. rewrite Hfp. cbn [bind]. unfold create_hash_functions.
    assert (negb (cp_functions p <? 0)%Z = true) as -> by lia. cbn [check bind]. rewrite Hc. cbn [bind]. reflexivity. }
  intros rnd ak av ops Hp Hb He Hl Ht Hr Ha1 Ha2. rewrite <- Hp in *.
  destruct (C38_build_succeeds sha rnd ak av ops Hsha Hr Ha1 Ha2 Ht Hb Hn Hk Hs Hf He Hl) as [db Hdb].
  pose proof Hdb as EB.
  destruct (C38_partial sha rnd ak av ops db Hsha Hr Ha1 Ha2 Ht EB) as (K & V & lost & _ & _ & _ & _ & Hbits).
  exists db. eexists. split; [exact EB|]. split.
  { unfold cuckoo_create_plain.
    assert (negb (cp_buckets (gs_params (gcrun ops)) <=? 0)%Z = true) as -> by lia.
    assert (negb (cp_functions (gs_params (gcrun ops)) <=? 0)%Z = true) as -> by lia.
    rewrite Hf. cbn [Z.eqb negb check bind]. rewrite Hbits, Z.eqb_refl. cbn [check bind]. rewrite Hd. cbn [bind]. rewrite Hfp. reflexivity. }
  reflexivity.
Qed.
Lemma simple_params_usable : forall F clog sha p, (forall x, length (sha x) = 32%nat) ->
  (0 < sp_buckets p < 2147483648)%Z -> hf_seed (sp_hash p) <> [] -> hf_family (sp_hash p) = 1%Z ->
  clog_ok clog (sp_buckets p) -> simple_usable F clog sha p.
Proof.
  intros F clog sha p Hsha Hn Hs Hf HL.
  destruct (dense_client_ok F clog (sp_buckets p) Hn HL) as (d & Hd & Hc).
  destruct (fingerprint_total sha (hf_seed (sp_hash p)) Hsha) as (fp & Hfp & _).
  eexists. split.
  { unfold simple_client_create. cbn [check bind]. assert (negb (sp_buckets p <=? 0)%Z = true) as -> by lia.
    cbn [check bind]. rewrite family_ok by assumption. cbn [bind]. rewrite Hfp. cbn [bind]. unfold create_hash_functions.
    change (Z.to_nat 1) with 1%nat. change (1 <? 0)%Z with false. cbn [negb check bind seq map rev app]. rewrite Hc. cbn [bind]. reflexivity. }
  intros a ops Hp Hb He Ha Hz. rewrite <- Hp in *.
  assert (Hn' : to_int32 (sp_buckets (gs_params (gsrun ops))) = sp_buckets (gs_params (gsrun ops))) by (apply to_int32_id; lia).
  destruct (simple_build_total sha a _ _ Hsha (srun_sim ops) Hb Ha) as (db & E & _ & Hbits & _).
  - unfold simple_params_ok. rewrite Hn'. repeat split; try assumption. lia.
  - unfold simple_records. rewrite Hn', Forall_map. apply Forall_forall. intros i Hi. apply in_seq in Hi. apply Hz. lia.
  - exists db, {| ss_params := gs_params (gsrun ops); ss_dpf := d; ss_db := db; ss_fingerprint := fp |}. split; [exact E|]. split; [|reflexivity].
    unfold simple_create_plain. assert (negb (sp_buckets (gs_params (gsrun ops)) <=? 0)%Z = true) as -> by lia.
    rewrite Hf. cbn [Z.eqb negb check bind]. rewrite Hbits, Hn', Z.eqb_refl. cbn [check bind]. rewrite Hd. cbn [bind]. rewrite Hfp. reflexivity.
Qed.

(** Which configurations are accepted. *)
Theorem C56_accepts : forall scale seed config,
  match config with
  | CfgCuckoo family n =>
      cuckoo_generate_params scale seed config
      = (if (0 <? n)%Z && negb (family =? 0)%Z
         then Ok {| cp_hash := {| hf_family := family; hf_seed := seed |}; cp_functions := 3; cp_buckets := scale n |}
         else Err INVALID_ARGUMENT) /\
      simple_generate_params seed config = Err INVALID_ARGUMENT
  | CfgSimple family n =>
      simple_generate_params seed config
      = (if (0 <? n)%Z && negb (family =? 0)%Z
         then Ok {| sp_hash := {| hf_family := family; hf_seed := seed |}; sp_buckets := n |}
         else Err INVALID_ARGUMENT) /\
      cuckoo_generate_params scale seed config = Err INVALID_ARGUMENT
  | _ => cuckoo_generate_params scale seed config = Err INVALID_ARGUMENT /\ simple_generate_params seed config = Err INVALID_ARGUMENT
  end.
Proof.
  intros scale seed [|n|family n|family n]; cbn [cuckoo_generate_params simple_generate_params]; auto; (split; [|reflexivity]);
    destruct (Z.ltb_spec 0 n); destruct (Z.leb_spec n 0); try lia; cbn [negb check bind andb]; try reflexivity;
    destruct (family =? 0)%Z; reflexivity.
Qed.
Print Assumptions C56_accepts.

(** The generated parameters are usable and have at least as many buckets as elements, for SHA-256 and
    fewer than 2^31 buckets.  [scale n] is 1.5 * n, rounded towards zero; a double holds it exactly.
    The seed has kHashFunctionSeedLengthBytes bytes. *)
Theorem C56_cuckoo_partial : forall F clog sha scale seed n,
  (forall x, length (sha x) = 32%nat) -> length seed = 16%nat -> (0 < n)%Z ->
  scale n = (3 * n / 2)%Z -> (3 * n / 2 < 2147483648)%Z -> clog_ok clog (3 * n / 2) ->
  exists p, cuckoo_generate_params scale seed (CfgCuckoo 1 n) = Ok p /\
    (n <= cp_buckets p)%Z /\ (2 * cp_buckets p <= 3 * n)%Z /\ cp_functions p = 3%Z /\ hf_seed (cp_hash p) = seed /\
    cuckoo_usable F clog sha p.
Proof.
  intros F clog sha scale seed n Hsha Hs Hn Hsc Hlt HL.
  destruct (C56_accepts scale seed (CfgCuckoo 1 n)) as [-> _]. destruct (Z.ltb_spec 0 n); [|lia]. cbn [Z.eqb negb andb].
  eexists. split; [reflexivity|]. cbn [cp_buckets cp_functions cp_hash hf_seed]. rewrite Hsc.
  split; [lia|]. split; [lia|]. split; [reflexivity|]. split; [reflexivity|].
  apply cuckoo_params_usable; cbn [cp_buckets cp_functions cp_hash hf_seed hf_family]; rewrite ?Hsc; auto; try lia.
  intros ->. discriminate.
Qed.
Print Assumptions C56_cuckoo_partial.
Theorem C56_simple_partial : forall F clog sha seed n,
  (forall x, length (sha x) = 32%nat) -> length seed = 16%nat -> (0 < n < 2147483648)%Z -> clog_ok clog n ->
  exists p, simple_generate_params seed (CfgSimple 1 n) = Ok p /\ sp_buckets p = n /\ hf_seed (sp_hash p) = seed /\
    simple_usable F clog sha p.
Proof.
  intros F clog sha seed n Hsha Hs Hn HL.
  destruct (C56_accepts (fun n => n) seed (CfgSimple 1 n)) as [-> _]. destruct (Z.ltb_spec 0 n); [|lia]. cbn [Z.eqb negb andb].
  eexists. split; [reflexivity|]. split; [reflexivity|]. split; [reflexivity|].
  apply simple_params_usable; cbn [sp_buckets sp_hash hf_seed hf_family]; auto. intros ->. discriminate.
Qed.
Print Assumptions C56_simple_partial.

(** Every accepted configuration would be usable if it were not for these two: a hash family number
    that this version does not know (enums of proto3 are open), and 2^31 or more elements or buckets.
    GenerateParams accepts both, but no builder with the resulting parameters ever builds a
    database, whatever the pairs. *)
Theorem C56_refuted : forall seed, exists family n big p p' p'' p3,
  cuckoo_generate_params (fun n => 3 * n / 2)%Z seed (CfgCuckoo family n) = Ok p /\
  simple_generate_params seed (CfgSimple family n) = Ok p' /\
  cuckoo_generate_params (fun n => 3 * n / 2)%Z seed (CfgCuckoo 1 big) = Ok p'' /\
  simple_generate_params seed (CfgSimple 1 big) = Ok p3 /\ (0 < n < 100)%Z /\ (big < 2 ^ 32)%Z /\
  forall sha rnd ak av ops ops', (forall x, length (sha x) = 32%nat) ->
    (gs_params (gcrun ops) = p \/ gs_params (gcrun ops) = p'' -> forall d, cuckoo_build sha rnd ak av (crun ops) <> Ok d) /\
    (gs_params (gsrun ops') = p' \/ gs_params (gsrun ops') = p3 -> forall d, simple_build sha ak (srun ops') <> Ok d).
Proof.
  intros seed. exists 2%Z, 10%Z, 2147483648%Z. do 4 eexists. split; [reflexivity|]. split; [reflexivity|]. split; [reflexivity|]. split; [reflexivity|].
  split; [lia|]. split; [lia|]. intros sha rnd ak av ops ops' Hsha. split.
  - intros Hp d HB. pose proof HB as E.
    pose proof (build_params sha rnd ak av _ _ Hsha (crun_sim ops) (crun_built _ _ _ _ _ _ E) d E) as (H1 & _ & _ & _ & H2 & _).
    destruct Hp as [Hp|Hp]; rewrite Hp in *; cbn [cp_buckets cp_hash hf_family] in *; [discriminate|]. vm_compute in H1. discriminate.
  - intros Hp d HB. pose proof HB as E.
    assert (Hnb : gs_built (gsrun ops') = false).
    { destruct (gs_built (gsrun ops')) eqn:EE; [|reflexivity]. unfold simple_build in E. rewrite (ss_b _ _ (srun_sim ops')), EE in E. discriminate. }
    pose proof (simple_build_params sha ak _ _ Hsha (srun_sim ops') Hnb d E) as [(H1 & _ & H2 & _) _].
    destruct Hp as [Hp|Hp]; rewrite Hp in *; cbn [sp_buckets sp_hash hf_family] in *; [discriminate|]. vm_compute in H1. discriminate.
Qed.
Print Assumptions C56_refuted.

(** ** C56 for every accepted configuration *)

(** The number of elements of a built database is the number of buckets of the table. *)
Lemma set_nth_len : forall A (l : list A) i v, length (set_nth l i v) = length l.
Proof. intros A l. induction l as [|x l IH]; intros [|i] v; cbn [set_nth length]; auto. Qed.
Lemma cuckoo_loop_len : forall rnd k c x, length (ck_table (snd (cuckoo_loop rnd k c x))) = length (ck_table c).
Proof.
  intros rnd k. induction k as [|k IH]; intros c x; cbn [cuckoo_loop]; [reflexivity|].
  destruct (cuckoo_slot rnd c x) as [[h [e|]]| | |]; try reflexivity.
  - rewrite IH. cbn [with_table ck_table]. apply set_nth_len.
  - cbn [snd with_table ck_table]. apply set_nth_len.
Qed.
Lemma cuckoo_insert_len : forall rnd c x, length (ck_table (snd (cuckoo_insert rnd c x))) = length (ck_table c).
Proof.
  intros rnd c x. unfold cuckoo_insert. pose proof (cuckoo_loop_len rnd (Z.to_nat (ck_relocations c)) c x) as H.
  destruct (cuckoo_loop rnd (Z.to_nat (ck_relocations c)) c x) as [[[e|]| | |] c']; cbn [snd] in *; try exact H.
  destruct (match ck_stash_limit c' with Some s => _ | None => _ end); exact H.
Qed.
Lemma hash_keys_len : forall rnd records c c', cuckoo_hash_keys rnd records c = Ok c' -> length (ck_table c') = length (ck_table c).
Proof.
  intros rnd records. induction records as [|kv records IH]; intros c c' H; unfold cuckoo_hash_keys in H; cbn [foldM] in H; [inv H; reflexivity|].
  bind_inv H. apply IH in H. rewrite H. bind_inv Hb. pose proof (cuckoo_insert_len rnd c (fst kv)) as HI.
  destruct (cuckoo_insert rnd c (fst kv)) as [[| | |] c1]; inv Hb. exact HI.
Qed.
Lemma fill_len : forall table records ks vs ks' vs', cuckoo_fill table records ks vs = Ok (ks', vs') ->
  length (b_values ks') = (length (b_values ks) + length table)%nat.
Proof.
  intros table. unfold cuckoo_fill. induction table as [|slot table IH]; intros records ks vs ks' vs' H; cbn [foldM] in H.
  - cbn [bind] in H. inv H. cbn [length]. lia.
  - destruct slot as [key|].
    + destruct (map_extract records key) as [[v rs]| | |]; cbn [bind] in H; try discriminate. apply IH in H. rewrite H.
      cbn [insert b_values length]. rewrite app_length. cbn [length]. lia.
    + cbn [bind] in H. apply IH in H. rewrite H. cbn [insert b_values length]. rewrite app_length. cbn [length]. lia.
Qed.
Lemma append_all_len : forall a vs d d', foldM (append a) vs d = Ok d' -> length (db_views d') = (length (db_views d) + length vs)%nat.
Proof.
  intros a vs. induction vs as [|v vs IH]; intros d d' H; cbn [foldM] in H; [inv H; cbn [length]; lia|].
  bind_inv H. apply IH in H. rewrite H. unfold append in Hb. destruct (N.of_nat (length v) =? 0).
  - inv Hb. cbn [db_views length]. rewrite app_length. cbn [length]. lia.
  - bind_inv Hb. bind_inv Hb. bind_inv Hb. inv Hb. cbn [db_views length]. rewrite app_length. cbn [length]. lia.
Qed.
Lemma build_len : forall a b d, fst (build a b) = Ok d -> db_size d = length (b_values b).
Proof.
  intros a b d H. unfold build in H. destruct (b_built b); [discriminate|]. cbn [fst] in H. bind_inv H. apply append_all_len in H.
  unfold db_size. rewrite H. unfold new_db in Hb. destruct (2 ^ 59 <=? _); [discriminate|]. inv Hb. reflexivity.
Qed.

Lemma cuckoo_built_params : forall sha rnd ak av ops d, (forall x, length (sha x) = 32%nat) ->
  cuckoo_build sha rnd ak av (crun ops) = Ok d ->
  hf_family (cp_hash (gs_params (gcrun ops))) = 1%Z /\ (cp_buckets (gs_params (gcrun ops)) < 2147483648)%Z.
Proof.
  intros sha rnd ak av ops d Hsha HB. pose proof (crun_built _ _ _ _ _ _ HB) as Hnb. pose proof (crun_sim ops) as Hsim.
  pose proof (build_params sha rnd ak av _ _ Hsha Hsim Hnb d HB) as (H1 & _ & _ & _ & H2 & _).
  split; [exact H2|]. set (p := gs_params (gcrun ops)) in *.
  pose proof (or_new_sim _ _ Hsim Hnb) as [OK OV]. destruct Hsim as [S1 _ _ _ S5].
  unfold cuckoo_build in HB. rewrite S5, Hnb in HB. unfold cuckoo_build_db in HB. rewrite S1, OK, OV in HB. fold p in HB.
  bind_inv HB. bind_inv HB. bind_inv HB. bind_inv HB. bind_inv HB. bind_inv HB. destruct a4 as [ks vs]. bind_inv HB. bind_inv HB. bind_inv HB.
  apply check_ok in Hb7. apply andb_prop in Hb7. destruct Hb7 as [_ Hb7]. apply Z.eqb_eq in Hb7.
  apply build_len in Hb5. apply fill_len in Hb4. apply hash_keys_len in Hb3. unfold cuckoo_create_family in Hb2. bind_inv Hb2.
  destruct (cuckoo_create_inv _ _ _ _ _ Hb2) as (_ & Ht & _). rewrite Ht, repeat_length in Hb3.
  cbn [new_builder b_values length] in Hb4. rewrite Hb5, Hb4, Hb3 in Hb7.
  assert (to_int32 (cp_buckets p) < 2147483648)%Z by (unfold to_int32; clear; lia). clear - Hb7 H H1. lia.
Qed.
Lemma simple_server_params : forall F clog sha a ops d s, (forall x, length (sha x) = 32%nat) ->
  simple_build sha a (srun ops) = Ok d -> simple_create_plain sha F clog (gs_params (gsrun ops)) (Some d) = Ok s ->
  hf_family (sp_hash (gs_params (gsrun ops))) = 1%Z /\ (sp_buckets (gs_params (gsrun ops)) < 2147483648)%Z.
Proof.
  intros F clog sha a ops d s Hsha HB HS.
  assert (Hnb : gs_built (gsrun ops) = false).
  { destruct (gs_built (gsrun ops)) eqn:EE; [|reflexivity]. unfold simple_build in HB. rewrite (ss_b _ _ (srun_sim ops)), EE in HB. discriminate. }
  pose proof (simple_build_params sha a _ _ Hsha (srun_sim ops) Hnb d HB) as [(H1 & _ & H2 & _) _].
  split; [exact H2|]. destruct (srun_sim ops) as [S1 _ _ S5]. set (p := gs_params (gsrun ops)) in *.
  unfold simple_create_plain in HS. bind_inv HS. bind_inv HS. bind_inv HS. inv Hb1. bind_inv HS. apply check_ok in Hb1. apply Z.eqb_eq in Hb1.
  unfold simple_build in HB. rewrite S5, Hnb in HB. unfold simple_build_db in HB. rewrite S1 in HB. fold p in HB.
  bind_inv HB. bind_inv HB. bind_inv HB. bind_inv HB. bind_inv HB. bind_inv HB. bind_inv HB. inv HB. cbn [sd_bits] in Hb1.
  assert (to_int32 (sp_buckets p) < 2147483648)%Z by (unfold to_int32; clear; lia). clear - Hb1 H. lia.
Qed.

(** Parameters for SHA-256 and fewer than 2^31 buckets are usable.  With all others no builder and no server
    work together: Build of cuckoo hashed databases fails, whatever the pairs, and no server accepts
    a simple hashed database. *)
Theorem C56_exact : forall F clog sha scale seed family n,
  (forall x, length (sha x) = 32%nat) -> length seed = 16%nat -> (0 < n)%Z -> family <> 0%Z ->
  (scale n = 3 * n / 2 -> clog_ok clog (3 * n / 2) ->
   exists p, cuckoo_generate_params scale seed (CfgCuckoo family n) = Ok p /\
     (family = 1 /\ 3 * n / 2 < 2147483648 -> cuckoo_usable F clog sha p) /\
     (~ (family = 1 /\ 3 * n / 2 < 2147483648) -> forall rnd ak av ops d, gs_params (gcrun ops) = p ->
        cuckoo_build sha rnd ak av (crun ops) <> Ok d))%Z /\
  (clog_ok clog n ->
   exists p, simple_generate_params seed (CfgSimple family n) = Ok p /\
     (family = 1 /\ n < 2147483648 -> simple_usable F clog sha p) /\
     (~ (family = 1 /\ n < 2147483648) -> forall a ops d s, gs_params (gsrun ops) = p ->
        simple_build sha a (srun ops) = Ok d -> simple_create_plain sha F clog p (Some d) <> Ok s))%Z.
Proof.
  intros F clog sha scale seed family n Hsha Hs Hn Hf. split.
  - intros Hsc HL. eexists. split.
    { destruct (C56_accepts scale seed (CfgCuckoo family n)) as [-> _]. destruct (Z.ltb_spec 0 n); [|lia].
      destruct (Z.eqb_spec family 0); [contradiction|]. cbn [negb andb]. reflexivity. }
    split.
    + intros [-> Hlt]. destruct (C56_cuckoo_partial F clog sha scale seed n Hsha Hs Hn Hsc Hlt HL) as (p & E & _ & _ & _ & _ & HU).
      destruct (C56_accepts scale seed (CfgCuckoo 1 n)) as [E' _]. rewrite E' in E. destruct (Z.ltb_spec 0 n); [|lia]. cbn [Z.eqb negb andb] in E. inv E. exact HU.
    + intros HN rnd ak av ops d Hp HB. apply HN. destruct (cuckoo_built_params sha rnd ak av ops d Hsha HB) as [H1 H2].
      rewrite Hp in H1, H2. cbn [cp_hash hf_family cp_buckets] in H1, H2. rewrite Hsc in H2. auto.
  - intros HL. eexists. split.
    { destruct (C56_accepts scale seed (CfgSimple family n)) as [-> _]. destruct (Z.ltb_spec 0 n); [|lia].
      destruct (Z.eqb_spec family 0); [contradiction|]. cbn [negb andb]. reflexivity. }
    split.
    + intros [-> Hlt]. destruct (C56_simple_partial F clog sha seed n Hsha Hs (conj Hn Hlt) HL) as (p & E & _ & _ & HU).
      destruct (C56_accepts scale seed (CfgSimple 1 n)) as [E' _]. rewrite E' in E. destruct (Z.ltb_spec 0 n); [|lia]. cbn [Z.eqb negb andb] in E. inv E. exact HU.
    + intros HN a ops d s Hp HB HS. apply HN. rewrite <- Hp in HS. destruct (simple_server_params F clog sha a ops d s Hsha HB HS) as [H1 H2].
      rewrite Hp in H1, H2. auto.
Qed.
Print Assumptions C56_exact.

Example C56_nonvacuous :
  (forall x, length (xq_sha x) = 32%nat) /\ clog_ok xp_clog (3 * 2 / 2) /\
  (exists p, cuckoo_generate_params (fun n => 3 * n / 2)%Z (repeat 7 16) (CfgCuckoo 1 2) = Ok p /\
    let ops := [CSetParams p; CInsert ([97], [5]); CInsert ([98], [6])] in
    gs_params (gcrun ops) = p /\ gs_built (gcrun ops) = false /\ Forall (fun kv => fst kv <> []) (gs_records (gcrun ops))) /\
  (exists p, simple_generate_params (repeat 7 16) (CfgSimple 1 3) = Ok p /\
    let ops := [SSetParams p; SInsert ([97], [5]); SInsert ([98], [6])] in
    gs_params (gsrun ops) = p /\ gs_built (gsrun ops) = false /\ Forall (fun kv => fst kv <> []) (gs_records (gsrun ops))).
Proof.
  split; [exact xq_sha_ok|]. split; [split; reflexivity || (vm_compute; discriminate)|].
  split; eexists; (split; [reflexivity|]); cbv zeta; (split; [reflexivity|]); (split; [reflexivity|]); repeat constructor; discriminate.
Qed.
