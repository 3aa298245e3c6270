(** C50 and C73 for sparse PIR: exchanging the queried strings is injective on the ciphers. *)
From Coq Require Import List NArith ZArith Lia Bool ZifyBool ZifyNat ZifyN.
From Verif Require Import Base ListUtil ValueTypesModel ValueTypesSpec DpfModel DpfSpec DpfExamples DpfPrivacySpec DpfPrivacy DpfHide DpfBiject
  PirDbModel PirSpec PirDbProofs PirIpProofs PirModel PirProtoSpec PirProtoProofs PirDenseProofs PropertiesPirProto PirPrivacy HashModel SparseModel SparseSpec
  SparseDbProofs SparseProofs PropertiesSparse PropertiesPrivacy PropertiesPirSafety PropertiesIpExact PropertiesPir PropertiesPirOutcomes PropertiesPirEnd PropertiesPirPrivacy
  DpfExt PirMask PropertiesPirView.
Import ListNotations.
Ltac Zify.zify_post_hook ::= Z.div_mod_to_equations.
Open Scope N_scope.

Notation cipher := (N -> N -> N) (only parsing).
Notation requests := (res (plain_request * helper_request * client_state)) (only parsing).

(** ** C50 *)
Theorem C50_cuckoo_bijection : forall sha F clog p c, (forall x, length (sha x) = 32%nat) -> (cp_buckets p < 2147483648)%Z ->
  clog_ok clog (cp_buckets p) -> cuckoo_client_create sha F clog (PpCuckoo p) true = Ok c ->
  forall (f : bool) seeds, (forall i, fst (seeds i) < 2 ^ 128 /\ snd (seeds i) < 2 ^ 128) ->
  let ps := dense_params clog (cp_buckets p) in
  let d := client_dpf (cc_dense c) in
  let buckets := buckets_of sha (hf_seed (cp_hash p)) (cp_buckets p) (Z.to_nat (cp_functions p)) in
  exists exchange undo : list bytes -> list bytes -> cipher -> cipher,
  (forall qs qs' g g', (forall k x, g k x = g' k x) -> forall k x, undo qs qs' g k x = undo qs qs' g' k x) /\
  forall aes qs qs' pad l h st, on_blocks aes ->
  cuckoo_create_plain_requests aes c qs seeds pad = Ok (l, h, st) -> length qs' = length qs ->
  all_apart aes ps d f (query_pairs l h (buckets qs) (buckets qs')) ->
  let aes1 := exchange qs qs' aes in
  let uses := fun g a b => others_uses g ps d f (query_pairs l h (buckets a) (buckets b)) in
  on_blocks aes1 /\ cuckoo_create_plain_requests aes1 c qs' seeds pad = Ok (l, h, CsCuckoo pad qs') /\ st = CsCuckoo pad qs /\
  all_apart aes1 ps d f (query_pairs l h (buckets qs') (buckets qs)) /\
  uses aes1 qs' qs = uses aes qs qs' /\ agree_off (uses aes qs qs') aes aes1 /\ (forall k x, undo qs qs' aes1 k x = aes k x) /\
  forall adversary : plain_request + helper_request -> oracle_program,
    disjoint (asked aes (adversary (view f l h))) (uses aes qs qs') ->
    run_program aes1 (adversary (view f l h)) = run_program aes (adversary (view f l h)) /\
    asked aes1 (adversary (view f l h)) = asked aes (adversary (view f l h)).
Proof.
  intros sha F clog p c Hs Hp HL Hc f seeds HS ps d buckets.
  destruct (cuckoo_client_parts sha F clog p c Hs Hp Hc) as (Hpos & Hdc & EQ). fold buckets in EQ.
  destruct (client_created F clog _ _ (conj Hpos Hp) Hdc) as [Hd Ec].
  exists (fun qs qs' => DpfBatch.exchange_all ps d f (query_jobs seeds (buckets qs) (buckets qs'))),
         (fun qs qs' => DpfBatch.undo_all ps d f (query_jobs seeds (buckets qs) (buckets qs'))).
  split. { intros qs qs' g g' Hg. apply undo_all_ext, Hg. }
  intros aes qs qs' pad l h st HB H HE HA aes1 uses. rewrite EQ in H. bind_inv H.
  destruct a as [[l0 h0] st0]. destruct (add_fingerprint (cc_fingerprint c) l0 h0) as [l1 h1] eqn:EF. injection H as <- <- <-.
  destruct (C50_shape aes F clog _ _ _ seeds pad l0 h0 st0 (conj Hpos Hp) HL Hdc Hb) as (S1 & _ & _ & S2 & S3 & S4).
  assert (EK : request_keys l1 h1 = request_keys l0 h0).
  { apply (fingerprint_keys (cc_fingerprint c)); auto. rewrite S1. destruct (hq_plain h0); [symmetry; apply S4|]. rewrite S4. reflexivity. }
  unfold uses, query_pairs in *. rewrite EK in *. rewrite Ec in Hb.
  destruct (PirPrivacy.dense_exchange F clog _ (conj Hpos Hp) HL (dc_dpf (cc_dense c)) Hd f seeds HS aes (buckets qs) (buckets qs') pad l0 h0 st0 HB Hb
    (buckets_length _ _ _ _ _ _ HE) (buckets_valid _ _ _ _ _ Hpos) HA) as (E1 & E2 & E3 & E4 & E5 & E6).
  rewrite <- Ec in E2. split; [exact E1|]. split; [unfold aes1; rewrite EQ; fold ps in E2; unfold d, client_dpf; rewrite E2; cbn [bind]; rewrite EF, S3; reflexivity|].
  split; [rewrite S3; reflexivity|]. do 4 (split; [assumption|]). intros adversary HQ. eapply program_agree; eauto.
Qed.
Print Assumptions C50_cuckoo_bijection.

Theorem C50_simple_bijection : forall sha F clog p c, (forall x, length (sha x) = 32%nat) -> (sp_buckets p < 2147483648)%Z ->
  clog_ok clog (sp_buckets p) -> simple_client_create sha F clog (PpSimple p) true = Ok c ->
  forall (f : bool) seeds, (forall i, fst (seeds i) < 2 ^ 128 /\ snd (seeds i) < 2 ^ 128) ->
  let ps := dense_params clog (sp_buckets p) in
  let d := client_dpf (sc_dense c) in
  let buckets := buckets_of sha (hf_seed (sp_hash p)) (sp_buckets p) 1 in
  exists exchange undo : list bytes -> list bytes -> cipher -> cipher,
  (forall qs qs' g g', (forall k x, g k x = g' k x) -> forall k x, undo qs qs' g k x = undo qs qs' g' k x) /\
  forall aes qs qs' pad l h st, on_blocks aes ->
  simple_create_plain_requests aes c qs seeds pad = Ok (l, h, st) -> length qs' = length qs ->
  all_apart aes ps d f (query_pairs l h (buckets qs) (buckets qs')) ->
  let aes1 := exchange qs qs' aes in
  let uses := fun g a b => others_uses g ps d f (query_pairs l h (buckets a) (buckets b)) in
  on_blocks aes1 /\ simple_create_plain_requests aes1 c qs' seeds pad = Ok (l, h, CsSimple pad qs') /\ st = CsSimple pad qs /\
  all_apart aes1 ps d f (query_pairs l h (buckets qs') (buckets qs)) /\
  uses aes1 qs' qs = uses aes qs qs' /\ agree_off (uses aes qs qs') aes aes1 /\ (forall k x, undo qs qs' aes1 k x = aes k x) /\
  forall adversary : plain_request + helper_request -> oracle_program,
    disjoint (asked aes (adversary (view f l h))) (uses aes qs qs') ->
    run_program aes1 (adversary (view f l h)) = run_program aes (adversary (view f l h)) /\
    asked aes1 (adversary (view f l h)) = asked aes (adversary (view f l h)).
Proof.
  intros sha F clog p c Hs Hp HL Hc f seeds HS ps d buckets.
  destruct (simple_client_parts sha F clog p c Hs Hp Hc) as (Hpos & Hdc & EQ). fold buckets in EQ.
  destruct (client_created F clog _ _ (conj Hpos Hp) Hdc) as [Hd Ec].
  exists (fun qs qs' => DpfBatch.exchange_all ps d f (query_jobs seeds (buckets qs) (buckets qs'))),
         (fun qs qs' => DpfBatch.undo_all ps d f (query_jobs seeds (buckets qs) (buckets qs'))).
  split. { intros qs qs' g g' Hg. apply undo_all_ext, Hg. }
  intros aes qs qs' pad l h st HB H HE HA aes1 uses. rewrite EQ in H. bind_inv H.
  destruct a as [[l0 h0] st0]. destruct (add_fingerprint (sc_fingerprint c) l0 h0) as [l1 h1] eqn:EF. injection H as <- <- <-.
  destruct (C50_shape aes F clog _ _ _ seeds pad l0 h0 st0 (conj Hpos Hp) HL Hdc Hb) as (S1 & _ & _ & S2 & S3 & S4).
  assert (EK : request_keys l1 h1 = request_keys l0 h0).
  { apply (fingerprint_keys (sc_fingerprint c)); auto. rewrite S1. destruct (hq_plain h0); [symmetry; apply S4|]. rewrite S4. reflexivity. }
  unfold uses, query_pairs in *. rewrite EK in *. rewrite Ec in Hb.
  destruct (PirPrivacy.dense_exchange F clog _ (conj Hpos Hp) HL (dc_dpf (sc_dense c)) Hd f seeds HS aes (buckets qs) (buckets qs') pad l0 h0 st0 HB Hb
    (buckets_length _ _ _ _ _ _ HE) (buckets_valid _ _ _ _ _ Hpos) HA) as (E1 & E2 & E3 & E4 & E5 & E6).
  rewrite <- Ec in E2. split; [exact E1|]. split; [unfold aes1; rewrite EQ; fold ps in E2; unfold d, client_dpf; rewrite E2; cbn [bind]; rewrite EF, S3; reflexivity|].
  split; [rewrite S3; reflexivity|]. do 4 (split; [assumption|]). intros adversary HQ. eapply program_agree; eauto.
Qed.
Print Assumptions C50_simple_bijection.

(** ** C73 *)

(** From an exchange of the queries that leaves the requests alone, one that also leaves the Helper's masked reply alone. *)
Lemma view_exchange : forall (Q : Type) (req : cipher -> Q -> requests) (hp : cipher -> request -> res response) ch pad
    (state : Q -> client_state) (good : Q -> Q -> Prop) (pairs : plain_request -> helper_request -> Q -> Q -> list ((dkey * dkey) * (N * N)))
    ps d (size : Q -> nat) (X U : Q -> Q -> cipher -> cipher),
  channel_ok ch -> fresh_pad pad ->
  (forall g g' q, same_prg g g' -> req g q = req g' q) ->
  (forall g g' r, same_prg g g' -> hp g r = hp g' r) ->
  (forall q q' g g', (forall k x, g k x = g' k x) -> forall k x, U q q' g k x = U q q' g' k x) ->
  (forall aes q q' l h st, on_blocks aes -> req aes q = Ok (l, h, st) -> good q q' ->
     all_apart aes ps d false (pairs l h q q') ->
     let aes1 := X q q' aes in
     let uses := fun g a b => others_uses g ps d false (pairs l h a b) in
     on_blocks aes1 /\ req aes1 q' = Ok (l, h, state q') /\ st = state q /\
     all_apart aes1 ps d false (pairs l h q' q) /\
     uses aes1 q' q = uses aes q q' /\ agree_off (uses aes q q') aes aes1 /\ (forall k x, U q q' aes1 k x = aes k x)) ->
  (forall aes aes1 q q' l h st st', req aes q = Ok (l, h, st) -> req aes1 q' = Ok (l, h, st') -> good q q' ->
     hq_seed h = pad /\ alike (hp aes (RqPlain (inner_plain h))) (hp aes1 (RqPlain (inner_plain h))) /\
     (reply_size (hp aes (RqPlain (inner_plain h))) <= size q)%nat) ->
  exists exchange undo : Q -> Q -> cipher -> cipher,
  forall aes q q' l h st e, on_blocks aes -> req aes q = Ok (l, h, st) -> ch_enc ch (ch_ser ch h) (ch_context ch) = Ok e ->
  good q q' -> N.of_nat (size q) <= 2 ^ 132 ->
  all_apart aes ps d false (pairs l h q q') ->
  let uses := fun g a b => others_uses g ps d false (pairs l h a b) ++ pad_uses pad (size q) in
  let reply := fun g => helper_reply_to g ch (hp g) e in
  let aes2 := exchange q q' aes in
  on_blocks aes2 /\ req aes2 q' = Ok (l, h, state q') /\ st = state q /\ reply aes2 = reply aes /\
  all_apart aes2 ps d false (pairs l h q' q) /\
  uses aes2 q' q = uses aes q q' /\ agree_off (uses aes q q') aes aes2 /\
  forall k x, undo q q' aes2 k x = aes k x.
Proof.
  intros Q req hp ch pad state good pairs ps d size X U HC HF Hreq Hhp HU HXC HAL. set (key := le_decode pad).
  exists (fun qs qs' aes => let aes1 := join key (X qs qs' (blank key aes)) aes in
            remask pad (reply_difference (plain_reply hp aes (req aes qs)) (plain_reply hp aes1 (req aes1 qs'))) aes1).
  exists (fun qs qs' aes2 => let aes0 := join key (U qs qs' (blank key aes2)) aes2 in
            remask pad (reply_difference (plain_reply hp aes0 (req aes0 qs)) (plain_reply hp aes2 (req aes2 qs'))) aes0).
  intros aes qs qs' l h st e HO H HE HG HTot HA uses reply. cbv zeta.
  pose proof (blank_same pad aes HF) as S0. fold key in S0.
  assert (HO0 : on_blocks (blank key aes)). { intros k x Hx. unfold blank. destruct (k =? key); [reflexivity|auto]. }
  pose proof H as H0. rewrite (Hreq _ _ _ S0) in H0.
  destruct (HXC (blank key aes) qs qs' l h st HO0 H0 HG (all_apart_same _ _ _ _ _ _ S0 HA)) as (E1 & E2 & Est & E3 & E4 & E5 & E6).
  set (aes1' := X qs qs' (blank key aes)) in *.
  set (aes1 := join key aes1' aes). pose proof (join_same pad aes1' aes HF : same_prg aes1' aes1) as S1.
  pose proof E2 as H1. rewrite (Hreq _ _ _ S1) in H1. rewrite H, H1. cbn [plain_reply].
  assert (EU : others_uses (blank key aes) ps d false (pairs l h qs qs') = others_uses aes ps d false (pairs l h qs qs')) by (symmetry; apply others_uses_same, S0).
  rewrite EU in E4, E5.
  assert (A1 : agree_off (others_uses aes ps d false (pairs l h qs qs')) aes aes1).
  { intros k x Hx. unfold aes1, join. destruct (N.eqb_spec k key) as [|Hk]; [reflexivity|]. rewrite E5 by exact Hx. unfold blank.
    destruct (N.eqb_spec k key); [contradiction|reflexivity]. }
  destruct (HAL aes aes1 qs qs' l h st _ H H1 HG) as (Hp & HAl & HSz).
  set (D := reply_difference (hp aes (RqPlain (inner_plain h))) (hp aes1 (RqPlain (inner_plain h)))).
  assert (HLen : length D = reply_size (hp aes (RqPlain (inner_plain h)))) by (apply reply_difference_length, HAl).
  set (aes2 := remask pad D aes1). pose proof (remask_prg pad D aes1 HF : same_prg aes1 aes2) as S2.
  pose proof (same_prg_trans _ _ _ S1 S2) as S12.
  destruct (channel_decrypts ch h e HC HE) as [HDc HPc].
  assert (HX : hp aes2 (RqPlain (inner_plain h)) = hp aes1 (RqPlain (inner_plain h))) by (symmetry; apply Hhp, S2).
  assert (H2 : req aes2 qs' = Ok (l, h, state qs')) by (rewrite <- (Hreq _ _ _ S2); exact H1).
  split; [|split; [exact H2|split; [exact Est|split; [|split; [|split; [|split]]]]]].
  - apply remask_blocks. intros k x Hx. unfold aes1, join. destruct (k =? key); auto.
  - unfold reply, helper_reply_to.
    assert (HT2 : N.of_nat (reply_size (hp aes (RqPlain (inner_plain h)))) <= 2 ^ 132) by (clear - HSz HTot; lia).
    pose proof (helper_alike aes aes1 (ch_par ch) (ch_dec ch) (ch_context ch) e _ h (hp aes) (hp aes1) HDc HPc HAl HT2) as HR. cbv zeta in HR.
    rewrite Hp in HR. fold D aes2 in HR.
    refine (eq_trans _ (HR _)); [|intros x; unfold aes1, join; fold key; rewrite N.eqb_refl; reflexivity].
    rewrite !(helper_reply aes2 (ch_par ch) (ch_dec ch) (ch_context ch) e _ h _ HDc HPc). rewrite HX. reflexivity.
  - apply (all_apart_same aes1'); assumption.
  - unfold uses. f_equal. rewrite <- E4. symmetry. apply others_uses_same, S12.
  - intros k x Hx. unfold aes2. rewrite (remask_agree pad D aes1).
    + apply A1. intros Hin. apply Hx. apply in_or_app. left. exact Hin.
    + intros Hin. apply Hx. apply in_or_app. right. apply (pad_uses_mono _ (length D)); [clear - HLen HSz; lia|exact Hin].
  - assert (HBl : forall k x, blank key aes2 k x = aes1' k x).
    { intros k x. unfold blank. destruct (N.eqb_spec k key) as [->|Hk].
      - symmetry. rewrite E5; [unfold blank; rewrite N.eqb_refl; reflexivity|]. intros Hin. apply HF. exact (uses_fixed_keys _ _ _ _ _ _ _ Hin).
      - unfold aes2, remask. fold key. destruct (N.eqb_spec k key); [contradiction|]. cbn [andb]. unfold aes1, join. destruct (N.eqb_spec k key); [contradiction|reflexivity]. }
    set (aes0 := join key (U qs qs' (blank key aes2)) aes2).
    assert (H0k : forall k x, k <> key -> aes0 k x = aes k x).
    { intros k x Hk. unfold aes0, join. destruct (N.eqb_spec k key); [contradiction|]. rewrite (HU _ _ _ _ HBl), E6. unfold blank.
      destruct (N.eqb_spec k key); [contradiction|reflexivity]. }
    assert (S00 : same_prg aes0 aes). { intros k x Hk. apply H0k. intros ->. contradiction. }
    intros k x. rewrite (Hreq _ _ _ S00), H, H2. cbn [plain_reply].
    assert (HX0 : hp aes0 (RqPlain (inner_plain h)) = hp aes (RqPlain (inner_plain h))) by (apply Hhp, S00).
    rewrite HX0, HX. fold D. destruct (N.eq_dec k key) as [->|Hk].
    + assert (HZ : aes0 key x = aes2 key x) by (unfold aes0, join; rewrite N.eqb_refl; reflexivity).
      transitivity (remask pad D aes2 key x); [unfold remask; rewrite HZ; reflexivity|]. unfold aes2. rewrite remask_twice.
      unfold aes1, join. rewrite N.eqb_refl. reflexivity.
    + unfold remask. fold key. destruct (N.eqb_spec k key); [contradiction|]. cbn [andb]. apply H0k, Hk.
Qed.

Theorem C73_cuckoo_bijection : forall sha F clog p c t K V db s ch, (forall x, length (sha x) = 32%nat) -> (cp_buckets p < 2147483648)%Z ->
  clog_ok clog (cp_buckets p) -> target_ok t -> cuckoo_client_create sha F clog (PpCuckoo p) true = Ok c ->
  byte_records K -> byte_records V -> holds (cd_keys db) K -> holds (cd_values db) V -> length V = length K -> cd_bits db = length K ->
  cuckoo_create_plain sha F clog p (Some db) = Ok s -> channel_ok ch ->
  forall seeds pad, (forall i, fst (seeds i) < 2 ^ 128 /\ snd (seeds i) < 2 ^ 128) -> fresh_pad pad ->
  let ps := dense_params clog (cp_buckets p) in
  let d := client_dpf (cc_dense c) in
  let buckets := buckets_of sha (hf_seed (cp_hash p)) (cp_buckets p) (Z.to_nat (cp_functions p)) in
  exists exchange undo : list bytes -> list bytes -> cipher -> cipher,
  forall aes qs qs' l h st e, on_blocks aes ->
  cuckoo_create_plain_requests aes c qs seeds pad = Ok (l, h, st) -> ch_enc ch (ch_ser ch h) (ch_context ch) = Ok e ->
  length qs' = length qs -> N.of_nat (length (buckets qs)) < 2 ^ 64 ->
  all_apart aes ps d false (query_pairs l h (buckets qs) (buckets qs')) ->
  let uses := fun g a b => others_uses g ps d false (query_pairs l h (buckets a) (buckets b)) ++
                           pad_uses pad (length (buckets qs) * (longest K + longest V)) in
  let reply := fun g => helper_reply_to g ch (cuckoo_handle_plain g t s) e in
  let aes2 := exchange qs qs' aes in
  on_blocks aes2 /\ cuckoo_create_plain_requests aes2 c qs' seeds pad = Ok (l, h, CsCuckoo pad qs') /\ st = CsCuckoo pad qs /\
  reply aes2 = reply aes /\ all_apart aes2 ps d false (query_pairs l h (buckets qs') (buckets qs)) /\
  uses aes2 qs' qs = uses aes qs qs' /\ agree_off (uses aes qs qs') aes aes2 /\
  forall k x, undo qs qs' aes2 k x = aes k x.
Proof.
  intros sha F clog p c t K V db s ch Hsha Hlt HL HT Hc HBK HBV HHK HHV HVK Hbits Hs HC seeds pad HS HF ps d buckets.
  destruct (C50_cuckoo_bijection sha F clog p c Hsha Hlt HL Hc false seeds HS) as (X & U & HU & HX). fold ps d buckets in HX.
  destruct (cuckoo_client_parts sha F clog p c Hsha Hlt Hc) as (Hpos & Hdc & EQ). fold buckets in EQ.
  destruct (view_exchange (list bytes) (fun g q => cuckoo_create_plain_requests g c q seeds pad) (fun g => cuckoo_handle_plain g t s) ch pad
    (CsCuckoo pad) (fun q q' => length q' = length q) (fun l h q q' => query_pairs l h (buckets q) (buckets q')) ps d
    (fun q => (length (buckets q) * (longest K + longest V))%nat) X U HC HF) as (exchange & undo & HR).
  - intros g g' q Hg. apply cuckoo_requests_same, Hg.
  - intros g g' r Hg. apply cuckoo_handle_plain_same, Hg.
  - exact HU.
  - intros aes q q' l h st HO H HE HA. destruct (HX aes q q' pad l h st HO H HE HA) as (E1 & E2 & E3 & E4 & E5 & E6 & E7 & _). auto 8.
  - intros aes aes1 q q' l h st st' H H1 HE.
    assert (HY : forall g q st, cuckoo_create_plain_requests g c q seeds pad = Ok (l, h, st) ->
       create_incremental F (dense_params clog (cp_buckets p)) = Ok (dc_dpf (cc_dense c)) /\ hq_seed h = pad /\ length (pq_keys (inner_plain h)) = length (buckets q) /\
       exists E, mapM (dense_expand g (dc_dpf (cc_dense c))) (pq_keys (inner_plain h)) = Ok E /\ length E = length (buckets q) /\
              Forall (fun e => length e = nblocks clog (cp_buckets p)) E).
    { intros g q0 st0 Hg. rewrite EQ in Hg. bind_inv Hg. destruct a as [[l0 h0] st1]. destruct (add_fingerprint (cc_fingerprint c) l0 h0) as [l1 h1] eqn:EF. injection Hg as <- <- _.
      destruct (fingerprint_plain _ _ _ _ _ EF) as [-> ->].
      destruct (honest_expands g F clog _ _ _ seeds pad l0 h0 st1 (conj Hpos Hlt) HL Hdc Hb) as (Z1 & _ & Z2 & Z3 & Z4). auto. }
    destruct (HY aes q st H) as (Hd & Hp & HK & E & X1 & X2 & X3). destruct (HY aes1 q' _ H1) as (_ & _ & HK' & E' & Y1 & Y2 & Y3).
    split; [exact Hp|]. unfold cuckoo_create_plain in Hs.
    bind_inv Hs. bind_inv Hs. bind_inv Hs. bind_inv Hs. injection Hb2 as <-. bind_inv Hs. apply check_ok in Hb2. bind_inv Hs. bind_inv Hs. injection Hs as Hs.
    rewrite Hd in Hb3. injection Hb3 as <-. rewrite <- HK.
    apply (cuckoo_alike aes aes1 (dc_dpf (cc_dense c)) (inner_plain h) E E' clog (cp_buckets p) t s K V (conj Hpos Hlt) HL HT);
      try assumption; try (subst s; reflexivity || assumption); try lia.
  - exists exchange, undo. intros aes qs qs' l h st e HO H HE HLq Hsz HA. apply HR; try assumption.
    apply total_bound; [exact Hsz|]. pose proof (longest_lt K HBK). pose proof (longest_lt V HBV). lia.
Qed.
Print Assumptions C73_cuckoo_bijection.

Theorem C73_simple_bijection : forall sha F clog p c t R db s ch, (forall x, length (sha x) = 32%nat) -> (sp_buckets p < 2147483648)%Z ->
  clog_ok clog (sp_buckets p) -> target_ok t -> simple_client_create sha F clog (PpSimple p) true = Ok c ->
  byte_records R -> holds (sd_dense db) R -> sd_bits db = Z.of_nat (length R) ->
  simple_create_plain sha F clog p (Some db) = Ok s -> channel_ok ch ->
  forall seeds pad, (forall i, fst (seeds i) < 2 ^ 128 /\ snd (seeds i) < 2 ^ 128) -> fresh_pad pad ->
  let ps := dense_params clog (sp_buckets p) in
  let d := client_dpf (sc_dense c) in
  let buckets := buckets_of sha (hf_seed (sp_hash p)) (sp_buckets p) 1 in
  exists exchange undo : list bytes -> list bytes -> cipher -> cipher,
  forall aes qs qs' l h st e, on_blocks aes ->
  simple_create_plain_requests aes c qs seeds pad = Ok (l, h, st) -> ch_enc ch (ch_ser ch h) (ch_context ch) = Ok e ->
  length qs' = length qs -> N.of_nat (length (buckets qs)) < 2 ^ 64 ->
  all_apart aes ps d false (query_pairs l h (buckets qs) (buckets qs')) ->
  let uses := fun g a b => others_uses g ps d false (query_pairs l h (buckets a) (buckets b)) ++
                           pad_uses pad (length (buckets qs) * longest R) in
  let reply := fun g => helper_reply_to g ch (simple_handle_plain g t s) e in
  let aes2 := exchange qs qs' aes in
  on_blocks aes2 /\ simple_create_plain_requests aes2 c qs' seeds pad = Ok (l, h, CsSimple pad qs') /\ st = CsSimple pad qs /\
  reply aes2 = reply aes /\ all_apart aes2 ps d false (query_pairs l h (buckets qs') (buckets qs)) /\
  uses aes2 qs' qs = uses aes qs qs' /\ agree_off (uses aes qs qs') aes aes2 /\
  forall k x, undo qs qs' aes2 k x = aes k x.
Proof.
  intros sha F clog p c t R db s ch Hsha Hlt HL HT Hc HB HH Hbits Hs HC seeds pad HS HF ps d buckets.
  destruct (C50_simple_bijection sha F clog p c Hsha Hlt HL Hc false seeds HS) as (X & U & HU & HX). fold ps d buckets in HX.
  destruct (simple_client_parts sha F clog p c Hsha Hlt Hc) as (Hpos & Hdc & EQ). fold buckets in EQ.
  destruct (view_exchange (list bytes) (fun g q => simple_create_plain_requests g c q seeds pad) (fun g => simple_handle_plain g t s) ch pad
    (CsSimple pad) (fun q q' => length q' = length q) (fun l h q q' => query_pairs l h (buckets q) (buckets q')) ps d
    (fun q => (length (buckets q) * longest R)%nat) X U HC HF) as (exchange & undo & HR).
  - intros g g' q Hg. apply simple_requests_same, Hg.
  - intros g g' r Hg. apply simple_handle_plain_same, Hg.
  - exact HU.
  - intros aes q q' l h st HO H HE HA. destruct (HX aes q q' pad l h st HO H HE HA) as (E1 & E2 & E3 & E4 & E5 & E6 & E7 & _). auto 8.
  - intros aes aes1 q q' l h st st' H H1 HE.
    assert (HY : forall g q st, simple_create_plain_requests g c q seeds pad = Ok (l, h, st) ->
       create_incremental F (dense_params clog (sp_buckets p)) = Ok (dc_dpf (sc_dense c)) /\ hq_seed h = pad /\ length (pq_keys (inner_plain h)) = length (buckets q) /\
       exists E, mapM (dense_expand g (dc_dpf (sc_dense c))) (pq_keys (inner_plain h)) = Ok E /\ length E = length (buckets q) /\
              Forall (fun e => length e = nblocks clog (sp_buckets p)) E).
    { intros g q0 st0 Hg. rewrite EQ in Hg. bind_inv Hg. destruct a as [[l0 h0] st1]. destruct (add_fingerprint (sc_fingerprint c) l0 h0) as [l1 h1] eqn:EF. injection Hg as <- <- _.
      destruct (fingerprint_plain _ _ _ _ _ EF) as [-> ->].
      destruct (honest_expands g F clog _ _ _ seeds pad l0 h0 st1 (conj Hpos Hlt) HL Hdc Hb) as (Z1 & _ & Z2 & Z3 & Z4). auto. }
    destruct (HY aes q st H) as (Hd & Hp & HK & E & X1 & X2 & X3). destruct (HY aes1 q' _ H1) as (_ & _ & HK' & E' & Y1 & Y2 & Y3).
    split; [exact Hp|]. unfold simple_create_plain in Hs.
    bind_inv Hs. bind_inv Hs. bind_inv Hs. injection Hb1 as <-. bind_inv Hs. apply check_ok in Hb1. bind_inv Hs. bind_inv Hs. injection Hs as Hs.
    rewrite Hd in Hb2. injection Hb2 as <-. rewrite <- HK.
    apply (simple_alike aes aes1 (dc_dpf (sc_dense c)) (inner_plain h) E E' clog (sp_buckets p) t s R (conj Hpos Hlt) HL HT);
      try assumption; try (subst s; reflexivity || assumption); try lia.
  - exists exchange, undo. intros aes qs qs' l h st e HO H HE HLq Hsz HA. apply HR; try assumption.
    apply total_bound; [exact Hsz|]. pose proof (longest_lt R HB). lia.
Qed.
Print Assumptions C73_simple_bijection.

(** ** Non-vacuity: the requests, databases and servers of [C50_sparse_nonvacuous] and [C73_sparse_nonvacuous], with a
    cipher that maps blocks to blocks, seeds that are blocks, a pad that is no fixed key, and a channel that decrypts. *)
Example C50_C73_sparse_bijection_nonvacuous :
  on_blocks ex_aes /\ (forall i, fst (xw_seeds i) < 2 ^ 128 /\ snd (xw_seeds i) < 2 ^ 128) /\ fresh_pad xp_seed /\ channel_ok xq_channel /\
  length xw_qs' = length xw_qs /\ xw_qs' <> xw_qs /\
  ltac:(let t := type of C50_sparse_nonvacuous in exact t) /\ ltac:(let t := type of C73_sparse_nonvacuous in exact t).
Proof.
  split; [exact ex_on_blocks|]. split; [exact xw_seeds_ok|]. split; [exact xw_fresh|]. split; [exact xq_channel_ok|]. split; [reflexivity|].
  split; [discriminate|]. split; [exact C50_sparse_nonvacuous|exact C73_sparse_nonvacuous].
Qed.
