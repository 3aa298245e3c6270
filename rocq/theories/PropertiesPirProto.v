(** Properties of the PIR protocol and of dense PIR end to end: C32-C36.  See PirSpec.v and
    PirProtoSpec.v for the vocabulary. *)
From Coq Require Import List NArith ZArith QArith Lia Bool ZifyBool ZifyNat ZifyN.
From Verif Require Import Base ListUtil ValueTypesModel ValueTypesSpec DpfModel DpfSpec DpfReach DpfExamples PirDbModel PirSpec PirIpProofs
  PirBuildProofs PropertiesPir PirModel PirProtoSpec PirProtoProofs PirDenseProofs.
Import ListNotations.
Ltac Zify.zify_post_hook ::= Z.div_mod_to_equations.
Open Scope N_scope.

(** ** C36: the pad generator produces one stream per seed and nonce *)
Theorem C36_stream : forall aes seed nonce lengths, length seed = 16%nat -> length nonce = 16%nat -> is_bytes nonce ->
  exists p outs, prng_create_with_nonce seed nonce = Ok p /\ random_strings aes p lengths = Ok outs /\
    map (@length N) outs = lengths /\
    concat outs = map (keystream aes seed nonce) (seq 0 (list_sum lengths)).
Proof.
  intros aes seed nonce lengths HS HN HB.
  assert (exists p, prng_create_with_nonce seed nonce = Ok p) as [p Hp].
  { unfold prng_create_with_nonce. rewrite HS, HN. cbn [Nat.eqb check bind]. eauto. }
  destruct (random_strings_ok aes seed nonce lengths 0 p) as (outs & H1 & H2 & H3); [apply create_at; assumption|].
  exists p, outs. auto.
Qed.
Print Assumptions C36_stream.
(** Only the total length matters. *)
Theorem C36_boundaries : forall aes seed nonce p ls1 ls2 o1 o2, is_bytes nonce ->
  prng_create_with_nonce seed nonce = Ok p -> list_sum ls1 = list_sum ls2 ->
  random_strings aes p ls1 = Ok o1 -> random_strings aes p ls2 = Ok o2 -> concat o1 = concat o2.
Proof.
  intros aes seed nonce p ls1 ls2 o1 o2 HB Hp HE H1 H2.
  pose proof (create_at aes seed nonce p Hp HB) as HA.
  destruct (random_strings_ok aes seed nonce ls1 0 p HA) as (x1 & E1 & _ & C1).
  destruct (random_strings_ok aes seed nonce ls2 0 p HA) as (x2 & E2 & _ & C2). congruence.
Qed.
Print Assumptions C36_boundaries.
Theorem C36_rejects : forall seed nonce, length seed <> 16%nat \/ length nonce <> 16%nat ->
  prng_create_with_nonce seed nonce = Err INVALID_ARGUMENT.
Proof.
  intros seed nonce H. unfold prng_create_with_nonce. destruct (Nat.eqb_spec (length seed) 16) as [E|]; cbn [check bind]; [|reflexivity].
  destruct (Nat.eqb_spec (length seed) (length nonce)); cbn [check bind]; [|reflexivity]. lia.
Qed.
Print Assumptions C36_rejects.
(** Seven calls that cross block boundaries in the middle, compared with one call. *)
Definition xp_seed : bytes := map N.of_nat (seq 1 16).
Definition xp_nonce : bytes := repeat 255 16.
Example C36_nonvacuous :
  match prng_create_with_nonce xp_seed xp_nonce with
  | Ok p => match random_strings ex_aes p [5; 0; 11; 1; 20; 3; 8]%nat, random_strings ex_aes p [48]%nat with
            | Ok a, Ok [b] => concat a = b /\ length b = 48%nat /\ firstn 16 b <> firstn 16 (skipn 16 b)
            | _, _ => False
            end
  | _ => False
  end.
Proof. vm_compute. repeat split. discriminate. Qed.

(** ** C34: masking *)

(** The Helper's reply is its plain reply XOR the pads. *)
Theorem C34_helper_reply : forall aes parse handle_plain decrypt context encrypted inner l,
  (exists decrypted, decrypt encrypted context = Ok decrypted /\ parse decrypted = Some inner) ->
  handle_plain (RqPlain (match hq_plain inner with Some p => p | None => default_plain end)) = Ok (Some l) ->
  length (hq_seed inner) = 16%nat ->
  handle_request aes parse handle_plain (Helper decrypt context) (RqHelper encrypted)
  = Ok (Some (xor_lists l (pads aes (hq_seed inner) 0 (map (@length N) l)))).
Proof.
  intros aes parse handle_plain decrypt context encrypted inner l (dec & HD & HP) HL HS.
  cbn [handle_request handle_helper_request]. rewrite HD. cbn [bind]. rewrite HP. cbn [bind]. cbv zeta. rewrite HL. cbn [bind].
  pose proof (mask_created aes (hq_seed inner) l HS) as HM. destruct (prng_create (hq_seed inner)) as [p|e| |]; cbn [bind] in *; try discriminate.
  rewrite HM. reflexivity.
Qed.
Print Assumptions C34_helper_reply.
(** Conversely every successful reply has this form; in particular no reply is sent without
    a pad. *)
Theorem C34_helper_only : forall aes parse handle_plain decrypt context req l',
  handle_request aes parse handle_plain (Helper decrypt context) req = Ok (Some l') ->
  exists encrypted decrypted inner l,
    req = RqHelper encrypted /\ decrypt encrypted context = Ok decrypted /\ parse decrypted = Some inner /\
    length (hq_seed inner) = 16%nat /\
    handle_plain (RqPlain (match hq_plain inner with Some p => p | None => default_plain end)) = Ok (Some l) /\
    l' = xor_lists l (pads aes (hq_seed inner) 0 (map (@length N) l)).
Proof.
  intros aes parse handle_plain decrypt context req l' H. cbn [handle_request] in H. unfold handle_helper_request in H.
  destruct req as [| |p|p e|e]; try discriminate. bind_inv H. destruct (parse a) as [inner|] eqn:EP; [|discriminate].
  cbn [bind] in H. cbv zeta in H. bind_inv H. rewrite prng_create_iff in H.
  destruct (Nat.eqb_spec (length (hq_seed inner)) 16) as [ES|]; [|discriminate]. cbn [bind] in H.
  destruct a0 as [l|]; [|discriminate]. exists e, a, inner, l. repeat split; auto.
  pose proof (mask_created aes (hq_seed inner) l ES) as HM. rewrite prng_create_iff, ES in HM. cbn [Nat.eqb bind] in HM.
  rewrite HM in H. cbn [bind] in H. congruence.
Qed.
Print Assumptions C34_helper_only.
(** The Leader XORs both replies, or reports INTERNAL if the numbers or sizes differ. *)
Theorem C34_leader_combines : forall aes parse handle_plain helper p e l h,
  handle_plain (RqPlain p) = Ok (Some l) -> helper (RqHelper e) = Ok (Some h) ->
  (same_shape l h -> handle_request aes parse handle_plain (Leader (honest_sender helper)) (RqLeader (Some p) (Some e))
                     = Ok (Some (xor_lists l h))) /\
  (~ same_shape l h -> handle_request aes parse handle_plain (Leader (honest_sender helper)) (RqLeader (Some p) (Some e))
                       = Err INTERNAL).
Proof.
  intros aes parse handle_plain helper p e l h HL HH.
  cbn [handle_request handle_leader_request bind honest_sender]. rewrite HH. unfold while_waiting. rewrite HL. cbn [bind check masked].
  split; intros HS.
  - assert (length h = length l) as -> by (unfold same_shape in HS; apply (f_equal (@length nat)) in HS; rewrite !map_length in HS; auto).
    rewrite Nat.eqb_refl. cbn [check bind]. rewrite combine_same by assumption. reflexivity.
  - destruct (Nat.eqb_spec (length h) (length l)) as [E|]; cbn [check bind]; [|reflexivity].
    rewrite combine_mismatch by assumption. reflexivity.
Qed.
Print Assumptions C34_leader_combines.
(** The client removes the pads: whatever the two plain replies are, it ends up with their
    XOR. *)
Theorem C34_unmasked : forall aes parse handle_leader handle_helper decrypt context p e decrypted inner l h,
  decrypt e context = Ok decrypted -> parse decrypted = Some inner ->
  handle_leader (RqPlain p) = Ok (Some l) ->
  handle_helper (RqPlain (match hq_plain inner with Some p => p | None => default_plain end)) = Ok (Some h) ->
  same_shape l h -> l <> [] -> length (hq_seed inner) = 16%nat ->
  exists r, handle_request aes parse handle_leader
              (Leader (honest_sender (handle_request aes parse handle_helper (Helper decrypt context))))
              (RqLeader (Some p) (Some e)) = Ok r /\
    dense_handle_response aes r (CsDense (hq_seed inner)) = Ok (xor_lists l h).
Proof.
  intros aes parse handle_leader handle_helper decrypt context p e decrypted inner l h HD HP HL HH HS Hne Hseed.
  set (pad := pads aes (hq_seed inner) 0 (map (@length N) h)).
  assert (HR : handle_request aes parse handle_helper (Helper decrypt context) (RqHelper e) = Ok (Some (xor_lists h pad)))
    by (eapply C34_helper_reply; eauto).
  assert (HPad : same_shape h pad) by (unfold same_shape, pad; rewrite pads_shape; reflexivity).
  assert (HSh : same_shape l (xor_lists h pad)) by (eapply same_shape_trans; [exact HS|]; apply same_shape_sym, xor_lists_shape; assumption).
  eexists. split.
  - apply (C34_leader_combines aes parse handle_leader _ p e l (xor_lists h pad) HL HR). assumption.
  - cbn [dense_handle_response bind].
    assert (HL2 : same_shape (xor_lists l (xor_lists h pad)) l) by (apply xor_lists_shape; assumption).
    destruct (length (xor_lists l (xor_lists h pad))) as [|k] eqn:EL.
    { exfalso. unfold same_shape in HL2. apply (f_equal (@length nat)) in HL2. rewrite !map_length in HL2. assert (Hz : O = length l) by (rewrite <- EL; exact HL2). destruct l; [congruence|discriminate]. }
    cbn [Nat.eqb negb check bind]. rewrite Hseed. cbn [Nat.eqb negb check bind].
    rewrite (mask_created aes (hq_seed inner) _ Hseed). f_equal.
    replace (map (@length N) (xor_lists l (xor_lists h pad))) with (map (@length N) h) by (unfold same_shape in *; congruence).
    fold pad. rewrite <- xor_lists_assoc. apply xor_lists_self.
    eapply same_shape_trans; [apply xor_lists_shape; assumption|]. eapply same_shape_trans; [exact HS|assumption].
Qed.
Print Assumptions C34_unmasked.
(** Two replies of sizes 0, 3 and 21. *)
Definition xp_leader : list bytes := [[]; [1; 2; 3]; repeat 7 21].
Definition xp_helper : list bytes := [[]; [9; 8; 7]; repeat 200 21].
Definition xp_inner : helper_request := {| hq_plain := Some default_plain; hq_seed := xp_seed |}.
Definition xp_reply : res response :=
  Eval vm_compute in handle_request ex_aes (fun _ => Some xp_inner) (fun _ => Ok (Some xp_leader))
    (Leader (honest_sender (handle_request ex_aes (fun _ => Some xp_inner) (fun _ => Ok (Some xp_helper)) (Helper (fun e _ => Ok e) []))))
    (RqLeader (Some default_plain) (Some [])).
Example C34_nonvacuous :
  match xp_reply with
  | Ok r => dense_handle_response ex_aes r (CsDense xp_seed) = Ok [[]; [8; 10; 4]; repeat 207 21] /\
            masked r <> [[]; [8; 10; 4]; repeat 207 21]
  | _ => False
  end.
Proof. vm_compute. split; [reflexivity|discriminate]. Qed.
Example C34_nonvacuous_mismatch :
  handle_request ex_aes (fun _ => None) (fun _ => Ok (Some xp_leader)) (Leader (honest_sender (fun _ => Ok (Some [[]; [1]; []]))))
    (RqLeader (Some default_plain) (Some [])) = Err INTERNAL.
Proof. reflexivity. Qed.

(** ** C35: obligations of the Leader *)

(** A response always combines the answer of the sender with the Leader's own answer. *)
Theorem C35_both_answers : forall aes parse handle_plain sender req r,
  handle_request aes parse handle_plain (Leader sender) req = Ok r ->
  exists p e hr lr, req = RqLeader (Some p) (Some e) /\
    sender (RqHelper e) = (true, Ok hr) /\ handle_plain (RqPlain p) = Ok lr /\
    same_shape (masked lr) (masked hr) /\ masked r = xor_lists (masked lr) (masked hr).
Proof.
  intros aes parse handle_plain sender req r H. cbn [handle_request] in H. unfold handle_leader_request in H.
  destruct req as [| |p|[p|] [e|]|e]; try discriminate. cbn [bind] in H.
  destruct (sender (RqHelper e)) as [run hres] eqn:ES. bind_inv H. bind_inv H. bind_inv H. apply check_ok in Hb1. subst run.
  unfold while_waiting in Hb. bind_inv H. bind_inv H. apply check_ok in Hb2. apply Nat.eqb_eq in Hb2. subst a.
  destruct (handle_plain (RqPlain p)) as [lr|err| |] eqn:EP; try discriminate. injection Hb as <-.
  exists p, e, a0, lr. split; [reflexivity|]. split; [rewrite ES, Hb0; reflexivity|]. split; [exact EP|].
  destruct lr as [l|].
  - bind_inv H. injection H as <-. cbn [masked] in *. apply combine_ok in Hb; auto.
  - injection H as <-. cbn [masked length] in *. destruct (masked a0); [|discriminate]. split; reflexivity.
Qed.
Print Assumptions C35_both_answers.
(** Each failure is reported. *)
Theorem C35_failures : forall aes parse handle_plain sender p e,
  (forall run err, sender (RqHelper e) = (run, Err err) -> safe (handle_plain (RqPlain p)) ->
     handle_request aes parse handle_plain (Leader sender) (RqLeader (Some p) (Some e)) = Err err) /\
  (forall hr, sender (RqHelper e) = (false, Ok hr) ->
     handle_request aes parse handle_plain (Leader sender) (RqLeader (Some p) (Some e)) = Err FAILED_PRECONDITION) /\
  (forall hr err, sender (RqHelper e) = (true, Ok hr) -> handle_plain (RqPlain p) = Err err ->
     handle_request aes parse handle_plain (Leader sender) (RqLeader (Some p) (Some e)) = Err err).
Proof.
  intros aes parse handle_plain sender p e. cbn [handle_request handle_leader_request bind]. repeat split.
  - intros run err ES [HC HU]. rewrite ES. unfold while_waiting. destruct run; [|reflexivity].
    destruct (handle_plain (RqPlain p)); try reflexivity; contradiction.
  - intros hr ES. rewrite ES. reflexivity.
  - intros hr err ES EP. rewrite ES. unfold while_waiting. rewrite EP. reflexivity.
Qed.
Print Assumptions C35_failures.
Theorem C35_malformed : forall aes parse handle_plain sender req,
  (forall p e, req <> RqLeader (Some p) (Some e)) ->
  handle_request aes parse handle_plain (Leader sender) req = Err INVALID_ARGUMENT.
Proof.
  intros aes parse handle_plain sender req H. destruct req as [| |p|[p|] [e|]|e]; try reflexivity. exfalso. eapply H. reflexivity.
Qed.
Print Assumptions C35_malformed.
Example C35_nonvacuous :
  handle_request ex_aes (fun _ => None) (fun _ => Ok (Some xp_leader)) (Leader (fun _ => (false, Ok (Some xp_helper))))
    (RqLeader (Some default_plain) (Some [])) = Err FAILED_PRECONDITION /\
  handle_request ex_aes (fun _ => None) (fun _ => Ok (Some xp_leader)) (Leader (fun _ => (true, Err UNIMPLEMENTED)))
    (RqLeader (Some default_plain) (Some [])) = Err UNIMPLEMENTED /\
  handle_request ex_aes (fun _ => None) (fun _ => Ok (Some xp_leader)) (Leader (fun _ => (true, Ok (Some xp_helper))))
    (RqLeader (Some default_plain) (Some [])) = Ok (Some [[]; [8; 10; 4]; repeat 207 21]).
Proof. vm_compute. repeat split. Qed.

(** ** C33: the dense client rejects exactly the queries out of range *)

(** A client is created for every positive number of elements. *)
Theorem C33_created : forall F clog n, (0 < n < 9223372036854775808)%Z -> clog_ok clog n ->
  exists c, dense_client_create F clog (CfgDense n) true = Ok c.
Proof.
  intros F clog n Hn HL. unfold dense_client_create. destruct (Z.ltb_spec 0 n); [|lia]. cbn [check bind].
  destruct (dense_create F clog n) as [d Hd]; try assumption; try lia. rewrite Hd. cbn [bind]. eauto.
Qed.
Print Assumptions C33_created.

Lemma range_check : forall size queries,
  iterM (fun q => _ <- check (negb (q <? 0)%Z) INVALID_ARGUMENT ;; check (negb (size <=? q)%Z) INVALID_ARGUMENT) queries
  = if existsb (fun q => (q <? 0)%Z || (size <=? q)%Z) queries then Err INVALID_ARGUMENT else Ok tt.
Proof.
  induction queries as [|q queries IH]; [reflexivity|]. cbn [iterM existsb]. rewrite IH.
  destruct (q <? 0)%Z, (size <=? q)%Z; cbn [negb check bind orb]; reflexivity.
Qed.

Theorem C33_queries_partial : forall aes F clog n c queries seeds pad,
  (0 < n < 9223372036854775808)%Z -> clog_ok clog n -> dense_client_create F clog (CfgDense n) true = Ok c ->
  (Exists (fun q => q < 0 \/ n <= q)%Z queries ->
   dense_create_plain_requests aes c queries seeds pad = Err INVALID_ARGUMENT) /\
  ((n < 2147483648)%Z -> Forall (fun q => 0 <= q < n)%Z queries ->
   exists r, dense_create_plain_requests aes c queries seeds pad = Ok r).
Proof.
  intros aes F clog n c queries seeds pad Hn HL HC. unfold dense_client_create in HC.
  bind_inv HC. bind_inv HC. bind_inv HC. injection HC as <-. clear Hb Hb0. rename a1 into d. rename Hb1 into Hd.
  unfold dense_create_plain_requests. rewrite range_check. cbn [dc_dpf dc_size].
  assert (Hle : (to_int32 n <= n)%Z) by (unfold to_int32; lia).
  split.
  - intros HE. replace (existsb _ queries) with true; [reflexivity|]. symmetry. apply existsb_exists.
    apply Exists_exists in HE. destruct HE as (q & Hq & Hr). exists q. split; [assumption|]. lia.
  - intros H31 HF. rewrite to_int32_small by lia. replace (existsb _ queries) with false.
    2:{ symmetry. apply not_true_is_false. intros HE. apply existsb_exists in HE. destruct HE as (q & Hq & Hr).
        pose proof (proj1 (Forall_forall _ _) HF q Hq). cbv beta in *. lia. }
    cbn [bind].
    assert (HK : exists keys, mapM (fun iq : nat * Z => dense_keys aes d (snd iq) (seeds (fst iq))) (combine (seq 0 (length queries)) queries) = Ok keys).
    { assert (HX : forall l, (forall iq : nat * Z, In iq l -> (0 <= snd iq < n)%Z) ->
        exists keys, mapM (fun iq : nat * Z => dense_keys aes d (snd iq) (seeds (fst iq))) l = Ok keys).
      { induction l as [|x l IH]; intros H; cbn [mapM]; [eauto|].
        destruct (dense_keys_ok aes F clog n ltac:(lia) ltac:(lia) HL d Hd (snd x) (seeds (fst x)) (H x (or_introl eq_refl))) as (k0 & k1 & K & _).
        rewrite K. destruct IH as [keys E]; [auto with datatypes|]. rewrite E. cbn [bind]. eauto. }
      apply HX. intros [i q] Hin. apply in_combine_r in Hin. exact (proj1 (Forall_forall _ _) HF q Hin). }
    destruct HK as [keys ->]. cbn [bind]. eauto.
Qed.
Print Assumptions C33_queries_partial.
(** The size is truncated to an int: with 2^32 elements the query 0 is rejected. *)
Theorem C33_refuted : exists n queries, (0 < n < 9223372036854775808)%Z /\ Forall (fun q => 0 <= q < n)%Z queries /\
  forall aes F clog, clog_ok clog n ->
  exists c, dense_client_create F clog (CfgDense n) true = Ok c /\
    forall seeds pad, dense_create_plain_requests aes c queries seeds pad = Err INVALID_ARGUMENT.
Proof.
  exists 4294967296%Z, [0%Z]. split; [lia|]. split; [repeat constructor; lia|]. intros aes F clog HL.
  destruct (C33_created F clog 4294967296 ltac:(lia) HL) as [c HC]. exists c. split; [assumption|].
  unfold dense_client_create in HC. bind_inv HC. bind_inv HC. bind_inv HC. injection HC as <-. reflexivity.
Qed.
Print Assumptions C33_refuted.

Definition xp_clog (n : Z) : Z := Z.log2_up n.
Lemma xp_clog_ok : forall n, (0 < n)%Z -> clog_ok xp_clog n.
Proof. intros n H. split; [apply Z.le_log2_log2_up|reflexivity]. Qed.
Definition xp_client : res dense_client := Eval vm_compute in dense_client_create ex_F xp_clog (CfgDense 300) true.
Definition xp_seeds (i : nat) : N * N := (N.of_nat i * 77 + 5, 999 - N.of_nat i).
Example C33_nonvacuous :
  clog_ok xp_clog 300 /\
  match xp_client with
  | Ok c => match dense_create_plain_requests ex_aes c [0; 299; 150]%Z xp_seeds xp_seed with Ok _ => True | _ => False end /\
            dense_create_plain_requests ex_aes c [0; 300]%Z xp_seeds xp_seed = Err INVALID_ARGUMENT /\
            dense_create_plain_requests ex_aes c [0; 1; -1]%Z xp_seeds xp_seed = Err INVALID_ARGUMENT
  | _ => False
  end.
Proof. split; [apply xp_clog_ok; reflexivity|]. vm_compute. repeat split. Qed.

(** ** C32: dense PIR end to end *)

(** [holds db records] is what C31 proves about databases returned by Build.  What is missing
    from the property: more than 2^30 elements (2^24 if the inner product is not vectorised),
    see [C32_refuted].  An empty batch of queries is rejected by the servers. *)
Theorem C32_plain_partial : forall aes F clog records t0 t1 db0 db1 queries seeds pad,
  let n := Z.of_nat (length records) in
  records_ok records -> clog_ok clog n -> target_ok t0 -> target_ok t1 ->
  dense_fits clog n t0 -> dense_fits clog n t1 -> (n < 2147483648)%Z ->
  holds db0 records -> holds db1 records ->
  queries <> [] -> Forall (fun q => 0 <= q < n)%Z queries ->
  exists c s0 s1 q0 h q1 state,
    dense_client_create F clog (CfgDense n) true = Ok c /\
    dense_create_plain F clog (CfgDense n) (Some db0) = Ok s0 /\
    dense_create_plain F clog (CfgDense n) (Some db1) = Ok s1 /\
    dense_create_plain_requests aes c queries seeds pad = Ok (q0, h, state) /\
    hq_plain h = Some q1 /\ hq_seed h = pad /\ state = CsDense pad /\
    exists r0 r1, dense_handle_plain aes t0 s0 (RqPlain q0) = Ok (Some r0) /\
      dense_handle_plain aes t1 s1 (RqPlain q1) = Ok (Some r1) /\
      r0 <> [] /\ same_shape r0 r1 /\
      xor_lists r0 r1 = map (fun q => zero_padded (longest records) (nth (Z.to_nat q) records [])) queries.
Proof.
  intros aes F clog records t0 t1 db0 db1 queries seeds pad n HR HL T0 T1 F0 F1 Hlen D0 D1 Hne HQ.
  pose proof (records_pos records HR) as Hpos. fold n in Hpos.
  destruct (dense_create F clog n Hpos ltac:(lia) HL) as [d Hd].
  assert (H60 : (clog n < 60)%Z) by (destruct F0; lia).
  destruct (queries_expand aes F clog records HR Hlen HL d Hd queries seeds H60 HQ) as (keys & E0 & E1 & K1 & K2 & K3 & K4 & K5).
  destruct (both_products clog records HR Hlen HL t0 t1 db0 db1 queries E0 E1 T0 T1 F0 F1 D0 D1 Hne HQ K5) as (r0 & r1 & P0 & P1 & PS & PL & PX).
  assert (Hr0 : r0 <> []) by (destruct r0, queries; [congruence|discriminate|discriminate|discriminate]).
  assert (Hr1 : r1 <> []) by (destruct r0, r1; [congruence|discriminate|discriminate PS|discriminate]).
  assert (Hk : keys <> []) by (destruct keys, queries; [congruence|discriminate|discriminate|discriminate]).
  destruct D0 as (DC0 & DS0 & DM0), D1 as (DC1 & DS1 & DM1).
  exists {| dc_dpf := d; dc_size := to_int32 n |}, {| ds_dpf := d; ds_db := db0 |}, {| ds_dpf := d; ds_db := db1 |},
    {| pq_keys := map fst keys; pq_fingerprint := 0 |},
    {| hq_plain := Some {| pq_keys := map snd keys; pq_fingerprint := 0 |}; hq_seed := pad |},
    {| pq_keys := map snd keys; pq_fingerprint := 0 |}, (CsDense pad).
  split; [|split; [|split; [|split; [|split; [|split; [|split]]]]]]; try reflexivity.
  - unfold dense_client_create. destruct (Z.ltb_spec 0 n); [|lia]. cbn [check bind]. rewrite Hd. reflexivity.
  - unfold dense_create_plain. cbn [bind]. destruct (Z.ltb_spec 0 n); [|lia]. cbn [check bind]. rewrite DS0, Z.eqb_refl. cbn [check bind].
    rewrite Hd. reflexivity.
  - unfold dense_create_plain. cbn [bind]. destruct (Z.ltb_spec 0 n); [|lia]. cbn [check bind]. rewrite DS1, Z.eqb_refl. cbn [check bind].
    rewrite Hd. reflexivity.
  - unfold dense_create_plain_requests. rewrite range_check. cbn [dc_dpf dc_size]. rewrite to_int32_small by lia.
    replace (existsb _ queries) with false.
    2:{ symmetry. apply not_true_is_false. intros HE. apply existsb_exists in HE. destruct HE as (q & Hq & Hr).
        pose proof (proj1 (Forall_forall _ _) HQ q Hq). cbv beta in *. lia. }
    cbn [bind]. rewrite K1. cbn [bind]. destruct keys; [congruence|]. reflexivity.
  - exists r0, r1. unfold dense_handle_plain. cbn [pq_keys ds_dpf ds_db]. rewrite !map_length.
    destruct (Nat.eqb_spec (length keys) 0) as [E|]; [destruct keys; [congruence|discriminate]|]. cbn [negb check bind].
    rewrite K3, K4. cbn [bind]. rewrite P0, P1. cbn [bind].
    destruct r0; [congruence|]. destruct r1; [congruence|]. repeat split; auto.
Qed.
Print Assumptions C32_plain_partial.

(** The Leader/Helper flow, for every serialisation that parses back and every encryption
    that decrypts. *)
Theorem C32_leader_helper_partial : forall aes F clog records t0 t1 db0 db1 queries seeds pad serialize parse encrypt decrypt context,
  let n := Z.of_nat (length records) in
  records_ok records -> clog_ok clog n -> target_ok t0 -> target_ok t1 ->
  dense_fits clog n t0 -> dense_fits clog n t1 -> (n < 2147483648)%Z ->
  holds db0 records -> holds db1 records ->
  queries <> [] -> Forall (fun q => 0 <= q < n)%Z queries -> length pad = 16%nat ->
  (forall h, parse (serialize h) = Some h) ->
  (forall m, exists e, encrypt m context = Ok e /\ decrypt e context = Ok m) ->
  exists c s0 s1 req state response,
    dense_client_create F clog (CfgDense n) true = Ok c /\
    dense_create_plain F clog (CfgDense n) (Some db0) = Ok s0 /\
    dense_create_plain F clog (CfgDense n) (Some db1) = Ok s1 /\
    create_request serialize encrypt context (dense_create_plain_requests aes c queries seeds pad) = Ok (req, state) /\
    handle_request aes parse (dense_handle_plain aes t0 s0)
      (Leader (honest_sender (handle_request aes parse (dense_handle_plain aes t1 s1) (Helper decrypt context)))) req = Ok response /\
    dense_handle_response aes response state
    = Ok (map (fun q => zero_padded (longest records) (nth (Z.to_nat q) records [])) queries).
Proof.
  intros aes F clog records t0 t1 db0 db1 queries seeds pad serialize parse encrypt decrypt context n HR HL T0 T1 F0 F1 Hlen D0 D1 Hne HQ Hpad HS HE.
  destruct (C32_plain_partial aes F clog records t0 t1 db0 db1 queries seeds pad HR HL T0 T1 F0 F1 Hlen D0 D1 Hne HQ)
    as (c & s0 & s1 & q0 & h & q1 & state & H1 & H2 & H3 & H4 & H5 & H6 & H7 & r0 & r1 & R0 & R1 & Rne & RS & RX).
  destruct (HE (serialize h)) as (e & E1 & E2).
  assert (Hh : hq_plain h = Some q1) by assumption.
  destruct (C34_unmasked aes parse (dense_handle_plain aes t0 s0) (dense_handle_plain aes t1 s1) decrypt context q0 e (serialize h) h r0 r1)
    as (r & RR & RC); auto.
  - rewrite H5. assumption.
  - rewrite H6. assumption.
  - exists c, s0, s1, (RqLeader (Some q0) (Some e)), state, r. repeat split; auto.
    + unfold create_request. rewrite H4. cbn [bind]. unfold to_leader_request. rewrite E1. reflexivity.
    + rewrite H7, <- H6, RC, RX. reflexivity.
Qed.
Print Assumptions C32_leader_helper_partial.

(** More than 2^30 elements: the servers reject every request, because the expanded DPF has
    2^31 blocks and its size is converted to an int. *)
Theorem C32_refuted : exists records, records_ok records /\ (Z.of_nat (length records) < 2147483648)%Z /\
  (exists db, holds db records) /\
  forall aes F clog t db queries seeds pad, let n := Z.of_nat (length records) in
    clog n = Z.log2_up n -> holds db records -> queries <> [] -> Forall (fun q => 0 <= q < n)%Z queries ->
    exists c s q0 h state,
      dense_client_create F clog (CfgDense n) true = Ok c /\
      dense_create_plain F clog (CfgDense n) (Some db) = Ok s /\
      dense_create_plain_requests aes c queries seeds pad = Ok (q0, h, state) /\
      dense_handle_plain aes t s (RqPlain q0) = Err INVALID_ARGUMENT.
Proof.
  assert (HM : exists m, Z.of_nat m = 1073741825%Z) by (exists (Z.to_nat 1073741825); apply Z2Nat.id; discriminate).
  destruct HM as [m HM]. exists (repeat [1] m).
  assert (HL : Z.of_nat (length (repeat [1] m)) = 1073741825%Z) by (rewrite repeat_length; assumption).
  assert (HR : records_ok (repeat [1] m)).
  { split.
    - apply Forall_forall. intros r Hr. apply repeat_spec in Hr. subst r. split; [repeat constructor|]. cbn [length]. lia.
    - apply Exists_exists. exists [1]. split; [|discriminate]. destruct m; [discriminate|]. left. reflexivity. }
  split; [exact HR|]. split; [rewrite repeat_length; lia|]. split.
  - destruct (build_ok xa_alloc {| b_values := repeat [1] m; b_total := Z.of_nat (16 * total_blocks (repeat [1] m)); b_built := false |})
      as (db & _ & HI); auto.
    + intros k. apply N.le_refl.
    + cbn [b_total b_values]. assert (HT : total_blocks (repeat [1] m) = m).
      { clear. induction m as [|m IH]; [reflexivity|]. cbn [repeat]. unfold total_blocks, list_sum in *. cbn [map fold_right]. rewrite IH. reflexivity. }
      rewrite HT. lia.
    + exists db. eapply dbi_holds. exact HI.
  - intros aes F clog t db queries seeds pad n Hc (DC & DS & DM) Hne HQ.
    assert (Hn : n = 1073741825%Z) by exact HL.
    assert (HCO : clog_ok clog n) by (split; rewrite Hc; [apply Z.le_log2_log2_up|apply Z.le_refl]).
    assert (Hc31 : clog n = 31%Z) by (rewrite Hc, Hn; reflexivity).
    destruct (dense_create F clog n) as [d Hd]; [lia|lia|assumption|].
    assert (H60 : (clog n < 60)%Z) by lia.
    destruct (queries_expand aes F clog (repeat [1] m) HR ltac:(lia) HCO d Hd queries seeds H60 HQ) as (keys & E0 & E1 & K1 & K2 & K3 & K4 & K5).
    assert (Hk : keys <> []) by (destruct keys, queries; [congruence|discriminate|discriminate|discriminate]).
    eexists {| dc_dpf := d; dc_size := to_int32 n |}, {| ds_dpf := d; ds_db := db |}, _, _, _. split; [|split; [|split]].
    + unfold dense_client_create. destruct (Z.ltb_spec 0 n); [|lia]. cbn [check bind]. rewrite Hd. reflexivity.
    + unfold dense_create_plain. cbn [bind]. destruct (Z.ltb_spec 0 n); [|lia]. cbn [check bind]. rewrite DS, Z.eqb_refl. cbn [check bind].
      rewrite Hd. reflexivity.
    + unfold dense_create_plain_requests. rewrite range_check. cbn [dc_dpf dc_size]. rewrite to_int32_small by lia.
      replace (existsb _ queries) with false.
      2:{ symmetry. apply not_true_is_false. intros HE. apply existsb_exists in HE. destruct HE as (q & Hq & Hr).
          pose proof (proj1 (Forall_forall _ _) HQ q Hq). cbv beta in *. lia. }
      cbn [bind]. rewrite K1. cbn [bind]. reflexivity.
    + unfold dense_handle_plain. cbn [pq_keys ds_dpf ds_db]. rewrite map_length.
      destruct (Nat.eqb_spec (length keys) 0) as [E|]; [destruct keys; [congruence|discriminate]|]. cbn [negb check bind].
      rewrite K3. cbn [bind]. unfold inner_product_with. destruct DC as (views & -> & HV). cbn [bind].
      assert (HN0 : exists e E, E0 = e :: E /\ Z.of_nat (length e) = 2147483648%Z).
      { destruct K5 as [|q e0 e1 qs E0 E1 (X & _)]; [congruence|]. exists e0, E0. split; [reflexivity|]. rewrite X. change (Z.of_nat (length (repeat [1] m))) with n. rewrite nblocks_Z by lia.
        rewrite Hc31. reflexivity. }
      destruct HN0 as (e & E & -> & HE). unfold inner_product. rewrite HE. cbv zeta. cbn [iterM].
      rewrite HE. change (to_int32 2147483648 mod 18446744073709551616)%Z with 18446744071562067968%Z.
      destruct (negb _); cbn [check bind]; reflexivity.
Qed.
Print Assumptions C32_refuted.

(** 300 records of different sizes, three queries, Leader/Helper flow with a vector target on
    one side and the scalar code on the other. *)
Definition xp_records : list bytes := map (fun i => repeat (N.of_nat i mod 251) (Nat.modulo i 19)) (seq 0 300).
Definition xp_db : res db :=
  Eval vm_compute in fst (build xa_alloc (fold_left insert xp_records new_builder)).
Definition xp_scalar : target := {| t_scalar := true; t_log_lanes := 0; t_depth := 0; t_align := 16;
  t_haddr := fun k => 16 * N.of_nat k; t_saddr := fun k => 32 * N.of_nat k + 5 |}.
Example C32_nonvacuous :
  match xp_db with
  | Ok db => holds db xp_records /\ records_ok xp_records /\ dense_fits xp_clog 300 xt_t /\ dense_fits xp_clog 300 xp_scalar /\
             longest xp_records = 18%nat
  | _ => False
  end.
Proof.
  unfold xp_db. split; [|split; [|split; [|split]]].
  - split; [|split; vm_compute; reflexivity]. eexists. split; vm_compute; reflexivity.
  - split; [|apply Exists_exists; exists [1]; split; [|discriminate]].
    + apply Forall_forall. intros r Hr. unfold xp_records in Hr. apply in_map_iff in Hr. destruct Hr as (i & <- & Hi). split.
      * apply Forall_forall. intros x Hx. apply repeat_spec in Hx. subst x. pose proof (N.mod_lt (N.of_nat i) 251). lia.
      * rewrite repeat_length. pose proof (Nat.mod_upper_bound i 19). lia.
    + unfold xp_records. apply in_map_iff. exists 1%nat. split; [reflexivity|]. apply in_seq. lia.
  - split; [reflexivity|right; discriminate].
  - split; [reflexivity|right; discriminate].
  - vm_compute. reflexivity.
Qed.
(** The Leader/Helper flow run on five records; requests travel unencrypted. *)
Definition xp_five : list bytes := [[1; 2]; []; repeat 77 18; [9]; [255; 0; 3]].
Definition xp_five_run : res (response * res (list bytes)) :=
  db <- fst (build xa_alloc (fold_left insert xp_five new_builder)) ;;
  c <- dense_client_create ex_F xp_clog (CfgDense 5) true ;;
  s <- dense_create_plain ex_F xp_clog (CfgDense 5) (Some db) ;;
  '(l, h, state) <- dense_create_plain_requests ex_aes c [4; 2; 1]%Z xp_seeds xp_seed ;;
  '(req, state) <- create_request (fun _ => []) (fun m _ => Ok m) [] (Ok (l, h, state)) ;;
  r <- handle_request ex_aes (fun _ => Some h) (dense_handle_plain ex_aes xt_t s)
         (Leader (honest_sender (handle_request ex_aes (fun _ => Some h) (dense_handle_plain ex_aes xp_scalar s) (Helper (fun m _ => Ok m) [])))) req ;;
  Ok (r, dense_handle_response ex_aes r state).
Example C32_computed :
  match xp_five_run with
  | Ok (r, out) => out = Ok [[255; 0; 3] ++ repeat 0 15; repeat 77 18; repeat 0 18] /\
                   masked r <> [[255; 0; 3] ++ repeat 0 15; repeat 77 18; repeat 0 18]
  | _ => False
  end.
Proof. vm_compute. split; [reflexivity|discriminate]. Qed.
