(** C32 and C41 without conditions on sizes: every outcome of an exchange between an honest client
    and two honest servers. *)
From Coq Require Import List NArith ZArith QArith Lia Bool ZifyBool ZifyNat ZifyN.
From Verif Require Import Base ListUtil ValueTypesModel ValueTypesSpec ValueTypesProofs TypeProofs DpfModel DpfWf DpfSpec
  DpfExamples PirDbModel PirSpec PirDbProofs PirIpProofs PirBuildProofs PirModel PirProtoSpec PirProtoProofs
  PirDenseProofs PropertiesPir PropertiesPirProto HashModel SparseModel SparseSpec SparseProofs SparseDbProofs PropertiesSparse PropertiesPirSafety
  PropertiesIpExact PropertiesPirOutcomes.
Import ListNotations.
Ltac Zify.zify_post_hook ::= Z.div_mod_to_equations.
Open Scope N_scope.

(** Client and both servers are created with [n] elements, the servers with databases [d0] (Leader) and
    [d1] (Helper); the client sends one batch of queries and handles the response. *)
Definition dense_exchange (aes : N -> N -> N) (F : fops) (clog : Z -> Z) (ch : channel) (n : Z)
    (t0 t1 : target) (d0 d1 : db) (queries : list Z) (seeds : nat -> N * N) (pad : bytes) : res (list bytes) :=
  c <- dense_client_create F clog (CfgDense n) true ;;
  s0 <- dense_create_plain F clog (CfgDense n) (Some d0) ;;
  s1 <- dense_create_plain F clog (CfgDense n) (Some d1) ;;
  '(req, state) <- create_request (ch_ser ch) (ch_enc ch) (ch_context ch) (dense_create_plain_requests aes c queries seeds pad) ;;
  response <- handle_request aes (ch_par ch) (dense_handle_plain aes t0 s0)
                (Leader (honest_sender (handle_request aes (ch_par ch) (dense_handle_plain aes t1 s1)
                                          (Helper (ch_dec ch) (ch_context ch))))) req ;;
  dense_handle_response aes response state.

(** What becomes of an exchange of which the servers can compute their parts or not. *)
Definition exchange_outcome {A} (rejected overflow : Prop) (good : A) (r : res A) : Prop :=
  (rejected -> r = Err INVALID_ARGUMENT) /\ (~ rejected -> overflow -> r = UB) /\ (~ rejected -> ~ overflow -> r = Ok good).

(** The Leader's result if one of the two servers fails. *)
Lemma leader_fails : forall aes parse hl hh decrypt context p e m h q, decrypt e context = Ok m -> parse m = Some h -> hq_plain h = Some q ->
  let r := handle_request aes parse hl (Leader (honest_sender (handle_request aes parse hh (Helper decrypt context)))) (RqLeader (Some p) (Some e)) in
  (hl (RqPlain p) = Err INVALID_ARGUMENT -> hh (RqPlain q) = Err INVALID_ARGUMENT -> r = Err INVALID_ARGUMENT) /\
  (hl (RqPlain p) = UB -> r = UB) /\
  (forall a, hl (RqPlain p) = Ok a -> hh (RqPlain q) = UB -> r = UB).
Proof.
  intros aes parse hl hh decrypt context p e m h q HD HP HQ r. unfold r, handle_request, handle_leader_request, honest_sender, handle_helper_request, while_waiting.
  cbn [bind]. rewrite HD. cbn [bind]. rewrite HP. cbn [bind]. rewrite HQ.
  split; [|split].
  - intros -> ->. reflexivity.
  - intros ->. reflexivity.
  - intros a -> ->. reflexivity.
Qed.

Definition plain_outcome {A} (rejected overflow : Prop) (r : res A) : Prop :=
  (rejected -> r = Err INVALID_ARGUMENT) /\ (~ rejected -> overflow -> r = UB) /\ (~ rejected -> ~ overflow -> is_ok r = true).

Lemma product_outcome : forall clog n t d records selections, (0 < n < 2147483648)%Z -> clog_ok clog n -> target_ok t ->
  holds d records -> byte_records records -> (Z.of_nat (length records) <= n)%Z ->
  selections <> [] -> Forall (fun e => length e = nblocks clog n) selections ->
  plain_outcome (all_empty records \/ (31 <= clog n)%Z) (overflows clog n t) (inner_product_with t d selections) /\
  forall r, inner_product_with t d selections = Ok r -> r <> [].
Proof.
  intros clog n t d records selections Hn HL HT HH HB Hlen Hne HE.
  pose proof (product_exact clog n t d records selections Hn HL HT HH HB Hlen Hne HE) as HP.
  split.
  - destruct (inner_product_with t d selections) as [r|e| |]; (split; [|split]); intros HA; try intros HO; try tauto; try reflexivity.
    + exfalso. destruct HP as (_ & H1 & H2 & _). destruct HA as [HA|HA]; [contradiction|]. lia.
    + destruct HP as [-> _]. reflexivity.
    + exfalso. destruct HP as [H1 H2]. destruct HA as [HA|HA]; [contradiction|]. unfold overflows in H2. lia.
  - intros r Hr. rewrite Hr in HP. destruct HP as [-> _]. destruct selections; [congruence|discriminate].
Qed.

(** The keys and expansions of a request do not depend on the records. *)
Lemma request_part : forall aes F clog n indices seeds pad, (0 < n < 2147483648)%Z -> clog_ok clog n ->
  indices <> [] -> Forall (fun q => 0 <= q < n)%Z indices ->
  exists d keys E0 E1, create_incremental F (dense_params clog n) = Ok d /\
    dense_client_create F clog (CfgDense n) true = Ok {| dc_dpf := d; dc_size := n |} /\
    dense_create_plain_requests aes {| dc_dpf := d; dc_size := n |} indices seeds pad
      = Ok ({| pq_keys := map fst keys; pq_fingerprint := 0 |},
            {| hq_plain := Some {| pq_keys := map snd keys; pq_fingerprint := 0 |}; hq_seed := pad |}, CsDense pad) /\
    keys <> [] /\
    mapM (dense_expand aes d) (map fst keys) = Ok E0 /\ mapM (dense_expand aes d) (map snd keys) = Ok E1 /\
    E0 <> [] /\ E1 <> [] /\ Forall (fun e => length e = nblocks clog n) E0 /\ Forall (fun e => length e = nblocks clog n) E1.
Proof.
  intros aes F clog n indices seeds pad Hn HL Hne HQ.
  set (R := repeat [1] (Z.to_nat n) : list bytes).
  assert (HR : records_ok R).
  { split.
    - apply Forall_forall. intros r Hr. apply repeat_spec in Hr. subst r. split; [repeat constructor|]. cbn [length]. lia.
    - apply Exists_exists. exists [1]. split; [|discriminate]. unfold R. destruct (Z.to_nat n) eqn:E; [lia|]. left. reflexivity. }
  assert (HlR : Z.of_nat (length R) = n) by (unfold R; rewrite repeat_length; lia).
  assert (H60 : (clog n < 60)%Z).
  { destruct HL as [_ HL]. apply (Z.le_lt_trans _ _ _ HL). apply (Z.le_lt_trans _ 31); [|reflexivity]. apply log2_small; try lia; reflexivity. }
  pose proof (dense_part aes F clog R HR) as HD. cbv zeta in HD. rewrite HlR in HD.
  destruct (HD ltac:(lia) HL H60 indices seeds pad Hne HQ) as (d & keys & E0 & E1 & D1 & D2 & D3 & D4 & D5 & D6 & D7).
  exists d, keys, E0, E1. do 6 (split; [assumption|]).
  assert (HX : length E0 = length indices /\ length E1 = length indices /\
    Forall (fun e => length e = nblocks clog n) E0 /\ Forall (fun e => length e = nblocks clog n) E1).
  { clear - D7 HlR. induction D7 as [|q e0 e1 qs E0 E1 (X & Y & _) _ IH]; [repeat split; constructor|].
    rewrite HlR in X, Y. destruct IH as (I1 & I2 & I3 & I4). cbn [length]. repeat split; try lia; constructor; assumption. }
  destruct HX as (X1 & X2 & X3 & X4). destruct indices; [congruence|].
  split; [destruct E0; discriminate|]. split; [destruct E1; discriminate|]. split; assumption.
Qed.

Lemma plain_to_exchange : forall aes ch A (hl hh : request -> res (option (list bytes))) (f : response -> res A) (good : A) q0 q1 h e (rej o0 o1 : Prop),
  channel_ok ch -> hq_plain h = Some q1 -> ch_enc ch (ch_ser ch h) (ch_context ch) = Ok e -> ch_dec ch e (ch_context ch) = Ok (ch_ser ch h) ->
  plain_outcome rej o0 (hl (RqPlain q0)) -> plain_outcome rej o1 (hh (RqPlain q1)) ->
  (o0 \/ ~ o0) ->
  let r := (response <- handle_request aes (ch_par ch) hl (Leader (honest_sender (handle_request aes (ch_par ch) hh (Helper (ch_dec ch) (ch_context ch)))))
              (RqLeader (Some q0) (Some e)) ;; f response) in
  (~ rej -> ~ (o0 \/ o1) -> r = Ok good) ->
  exchange_outcome rej (o0 \/ o1) good r.
Proof.
  intros aes ch A hl hh f good q0 q1 h e rej o0 o1 [HS _] Hq1 _ HD (P0 & P0' & P0'') (P1 & P1' & P1'') HDec r HG.
  destruct (leader_fails aes (ch_par ch) hl hh (ch_dec ch) (ch_context ch) q0 e (ch_ser ch h) h q1 HD (HS h) Hq1) as (L1 & L2 & L3).
  split; [|split; [|exact HG]].
  - intros HR. unfold r. rewrite L1 by auto. reflexivity.
  - intros HNR HO. unfold r. destruct HDec as [H0|H0].
    + rewrite L2 by auto. reflexivity.
    + destruct HO as [HO|HO]; [contradiction|]. specialize (P0'' HNR H0). destruct (hl (RqPlain q0)) as [a| | |] eqn:E; try discriminate.
      rewrite (L3 a) by auto. reflexivity.
Qed.

Lemma overflows_dec : forall clog n t, overflows clog n t \/ ~ overflows clog n t.
Proof.
  intros clog n t. unfold overflows. destruct (t_scalar t || Nat.ltb (t_log_lanes t) 4); [|right; intros [H _]; discriminate].
  destruct (Z_lt_dec 24 (clog n)); [|right; lia]. destruct (Z_lt_dec (clog n) 31); [left; split; [reflexivity|lia]|right; lia].
Qed.
Lemma fits_overflow : forall clog n t, (clog n < 31)%Z -> ~ overflows clog n t -> dense_fits clog n t.
Proof.
  intros clog n t H HO. split; [exact H|]. unfold overflows in HO. unfold vector_target.
  destruct (t_scalar t); cbn [orb] in HO.
  - right. destruct (Z_le_dec (clog n) 24); [assumption|]. exfalso. apply HO. split; [reflexivity|lia].
  - destruct (Nat.ltb_spec (t_log_lanes t) 4) as [E|E].
    + right. destruct (Z_le_dec (clog n) 24); [assumption|]. exfalso. apply HO. split; [reflexivity|lia].
    + left. auto.
Qed.
Lemma not_empty_ok : forall records, byte_records records -> ~ all_empty records -> records_ok records.
Proof.
  intros records HB HN. split; [exact HB|]. clear HB. unfold all_empty in HN. induction records as [|r l IH]; [exfalso; apply HN; constructor|].
  destruct r as [|b r]; [|left; discriminate]. right. apply IH. intros H. apply HN. constructor; [reflexivity|exact H].
Qed.

(** ** C32 for all databases of up to 2^31 elements *)

(** The exchange is rejected if all records are empty or if there are more than 2^30 elements (ceil(log2 n)
    is 31 or more), has undefined behaviour if a server's inner product overflows (not vectorised, more than
    2^24 elements), and otherwise returns the queried records. *)
Theorem C32_exact : forall aes F clog ch records t0 t1 db0 db1 queries seeds pad,
  let n := Z.of_nat (length records) in
  byte_records records -> (0 < n < 2147483648)%Z -> clog_ok clog n -> target_ok t0 -> target_ok t1 ->
  holds db0 records -> holds db1 records -> channel_ok ch ->
  queries <> [] -> Forall (fun q => 0 <= q < n)%Z queries -> length pad = 16%nat ->
  exchange_outcome (all_empty records \/ (31 <= clog n)%Z) (overflows clog n t0 \/ overflows clog n t1)
    (map (fun q => zero_padded (longest records) (nth (Z.to_nat q) records [])) queries)
    (dense_exchange aes F clog ch n t0 t1 db0 db1 queries seeds pad).
Proof.
  intros aes F clog ch records t0 t1 db0 db1 queries seeds pad n HB Hn HL T0 T1 H0 H1 HC Hne HQ Hpad.
  destruct (request_part aes F clog n queries seeds pad Hn HL Hne HQ) as (d & keys & E0 & E1 & D1 & D2 & D3 & D4 & D5 & D6 & N0 & N1 & L0 & L1).
  set (q0 := {| pq_keys := map fst keys; pq_fingerprint := 0 |}) in *.
  set (q1 := {| pq_keys := map snd keys; pq_fingerprint := 0 |}) in *.
  set (h := {| hq_plain := Some q1; hq_seed := pad |}) in *.
  assert (HSv : forall db, holds db records -> dense_create_plain F clog (CfgDense n) (Some db) = Ok {| ds_dpf := d; ds_db := db |}).
  { intros db (DC & DS & DM). unfold dense_create_plain. cbn [bind]. destruct (Z.ltb_spec 0 n); [|lia]. cbn [check bind].
    rewrite DS, Z.eqb_refl. cbn [check bind]. rewrite D1. reflexivity. }
  destruct HC as [HS HE]. destruct (HE (ch_ser ch h)) as (e & X1 & X2).
  assert (HX : dense_exchange aes F clog ch n t0 t1 db0 db1 queries seeds pad =
    (response <- handle_request aes (ch_par ch) (dense_handle_plain aes t0 {| ds_dpf := d; ds_db := db0 |})
       (Leader (honest_sender (handle_request aes (ch_par ch) (dense_handle_plain aes t1 {| ds_dpf := d; ds_db := db1 |})
          (Helper (ch_dec ch) (ch_context ch))))) (RqLeader (Some q0) (Some e)) ;; dense_handle_response aes response (CsDense pad))).
  { unfold dense_exchange. rewrite D2. cbn [bind]. rewrite !HSv by assumption. cbn [bind]. unfold create_request. rewrite D3. cbn [bind].
    unfold to_leader_request. rewrite X1. reflexivity. }
  assert (HP : forall t db keys E, target_ok t -> holds db records -> keys <> [] -> mapM (dense_expand aes d) keys = Ok E -> E <> [] ->
     Forall (fun e => length e = nblocks clog n) E ->
     plain_outcome (all_empty records \/ (31 <= clog n)%Z) (overflows clog n t)
       (dense_handle_plain aes t {| ds_dpf := d; ds_db := db |} (RqPlain {| pq_keys := keys; pq_fingerprint := 0 |}))).
  { clear - Hn HL HB. intros t db keys E HT HH Hk HM HEn HEl. unfold dense_handle_plain. cbn [pq_keys ds_dpf ds_db].
    destruct (Nat.eqb_spec (length keys) 0) as [EK|]; [destruct keys; [congruence|discriminate]|]. cbn [negb check bind]. rewrite HM. cbn [bind].
    destruct (product_outcome clog n t db records E Hn HL HT HH HB ltac:(lia) HEn HEl) as ((P1 & P2 & P3) & P4).
    split; [|split]; intros HA; [rewrite P1 by assumption; reflexivity| |]; intros HO.
    - rewrite P2 by assumption. reflexivity.
    - specialize (P3 HA HO). destruct (inner_product_with t db E) as [r| | |]; try discriminate. reflexivity. }
  rewrite HX. apply (plain_to_exchange aes ch _ _ _ _ _ q0 q1 h e); try assumption; try reflexivity.
  - split; assumption.
  - apply HP with (E := E0); try assumption. destruct keys; [congruence|discriminate].
  - apply HP with (E := E1); try assumption. destruct keys; [congruence|discriminate].
  - apply overflows_dec.
  - cbv zeta. intros HR HO. rewrite <- HX.
    assert (Hc31 : (clog n < 31)%Z) by lia.
    destruct (C32_leader_helper_partial aes F clog records t0 t1 db0 db1 queries seeds pad (ch_ser ch) (ch_par ch) (ch_enc ch) (ch_dec ch) (ch_context ch))
      as (c & s0 & s1 & req & state & response & R1 & R2 & R3 & R4 & R5 & R6); try assumption.
    + apply not_empty_ok; tauto.
    + apply fits_overflow; tauto.
    + apply fits_overflow; tauto.
    + apply Hn.
    + unfold dense_exchange. unfold n. rewrite R1. cbn [bind]. rewrite R2, R3. cbn [bind]. rewrite R4. cbn [bind]. rewrite R5. exact R6.
Qed.
Print Assumptions C32_exact.
(** Each outcome occurs: for a database of three elements, two of which are empty, for one of empty records,
    with a logarithm of 31 (as for 2^30 + 1 elements) and, without vectors, of 25. *)
Example C32_exact_nonvacuous :
  byte_records [[]; [5; 6]; []] /\ ~ all_empty [[]; [5; 6]; []] /\ all_empty [[]; []] /\ byte_records [[]; []] /\
  clog_ok xp_clog 3 /\ ~ overflows xp_clog 3 xt_t /\ ~ (31 <= xp_clog 3)%Z /\ (xp_clog 1073741825 = 31)%Z /\
  overflows xp_clog 33554432 xp_scalar.
Proof.
  split; [repeat constructor|]. split; [intros H; inversion H as [|? ? _ H2]; inversion H2; discriminate|].
  split; [repeat constructor|]. split; [repeat constructor|]. split; [apply xp_clog_ok; reflexivity|].
  split; [intros [_ H]; vm_compute in H; destruct H; discriminate|]. split; [vm_compute; intros H; apply H; reflexivity|].
  split; [reflexivity|]. split; [reflexivity|]. vm_compute. split; reflexivity.
Qed.

(** ** C41 for all databases of up to 2^31 buckets *)

(** As C32: the exchange is rejected if no pair was inserted or the DPF has 2^31 blocks, has undefined behaviour if
    an inner product overflows, and otherwise returns the values first inserted. *)
Theorem C41_exact : forall aes F clog sha ch ops0 ops1 a0 a1 d0 d1 t0 t1 queries seeds pad,
  let g := gsrun ops0 in let p := gs_params g in let kvs := gs_records g in
  (forall x, length (sha x) = 32%nat) -> alloc_ok a0 -> alloc_ok a1 -> channel_ok ch ->
  Forall (fun kv => is_bytes (fst kv) /\ is_bytes (snd kv)) kvs ->
  gs_params (gsrun ops1) = p -> gs_records (gsrun ops1) = kvs ->
  simple_build sha a0 (srun ops0) = Ok d0 -> simple_build sha a1 (srun ops1) = Ok d1 ->
  (0 < sp_buckets p < 2147483648)%Z -> clog_ok clog (sp_buckets p) -> target_ok t0 -> target_ok t1 ->
  queries <> [] -> length pad = 16%nat ->
  exchange_outcome (kvs = [] \/ (31 <= clog (sp_buckets p))%Z) (overflows clog (sp_buckets p) t0 \/ overflows clog (sp_buckets p) t1)
    (map (first_value kvs) queries)
    (simple_exchange aes F clog sha ch p t0 t1 d0 d1 queries seeds pad).
Proof.
  intros aes F clog sha ch ops0 ops1 a0 a1 d0 d1 t0 t1 queries seeds pad g p kvs Hsha Ha0 Ha1 Hch Hb HSp HSr HB0 HB1 Hlt HL T0 T1 Hq Hpad.
  set (n := sp_buckets p) in *. set (seed := hf_seed (sp_hash p)) in *.
  set (R := map (fun i => serialize_bucket (proto_of (load sha seed n kvs i))) (seq 0 (Z.to_nat n))).
  assert (HBuilt : hf_seed (sp_hash p) <> [] /\ hf_family (sp_hash p) = 1%Z /\ holds (sd_dense d0) R /\ holds (sd_dense d1) R /\
     sd_bits d0 = n /\ sd_bits d1 = n /\ Forall (fun r : bytes => N.of_nat (length r) < 2 ^ 31) R).
  { pose proof (srun_sim ops0) as Hsim0. fold g in Hsim0. pose proof (srun_sim ops1) as Hsim1.
    assert (Hnb : forall a ops d, simple_build sha a (srun ops) = Ok d -> gs_built (gsrun ops) = false).
    { clear. intros a ops d H. destruct (gs_built (gsrun ops)) eqn:E; [|reflexivity]. unfold simple_build in H.
      rewrite (ss_b _ _ (srun_sim ops)), E in H. discriminate. }
    pose proof (Hnb _ _ _ HB0) as Hnb0. pose proof (Hnb _ _ _ HB1) as Hnb1. clear Hnb. fold g in Hnb0.
    destruct (simple_build_params sha a0 _ g Hsha Hsim0 Hnb0 d0 HB0) as [P0 S0].
    destruct (simple_build_params sha a1 _ _ Hsha Hsim1 Hnb1 d1 HB1) as [P1 S1].
    destruct (simple_build_total sha a0 _ g Hsha Hsim0 Hnb0 Ha0 P0 S0) as (d0' & E0' & HH0 & HS0 & _).
    destruct (simple_build_total sha a1 _ _ Hsha Hsim1 Hnb1 Ha1 P1 S1) as (d1' & E1' & HH1 & HS1 & _).
    rewrite HB0 in E0'. rewrite HB1 in E1'. cbn [fst] in E0', E1'. injection E0' as <-. injection E1' as <-.
    unfold simple_records in HH1, S1. rewrite HSp, HSr in HH1. rewrite HSp in HS1. unfold simple_records in HH0, S0. fold p kvs in HH0, S0. fold p in HS0, HH1.
    destruct P0 as (Pn & Ps & Pf & _). fold p in Pn, Ps, Pf.
    assert (Hn : to_int32 (sp_buckets p) = sp_buckets p) by (apply to_int32_id; fold n; lia).
    fold n in Hn. fold n seed in HH0, HH1, HS0, HS1, S0. rewrite Hn in *. repeat split; assumption || apply HH0 || apply HH1. }
  destruct HBuilt as (Ps & Pf & HH0 & HH1 & Bt0 & Bt1 & HSz).
  assert (HRl : Z.of_nat (length R) = n) by (unfold R; rewrite map_length, seq_length; lia).
  destruct (fingerprint_total sha seed Hsha) as (fp & Hfp & _).
  assert (HR : byte_records R /\ (all_empty R <-> kvs = [])).
  { destruct (list_eq_dec (fun a b : bytes * bytes => ltac:(repeat decide equality)) kvs []) as [E|E].
    - assert (HA : forall r, In r R -> r = []).
      { intros r Hr. unfold R in Hr. rewrite E in Hr. apply in_map_iff in Hr. destruct Hr as (i & <- & _). reflexivity. }
      split; [|split; [auto|]].
      + apply Forall_forall. intros r Hr. apply HA in Hr. subst r. split; [constructor|reflexivity].
      + intros _. apply Forall_forall. exact HA.
    - pose proof (R_ok sha p kvs Hsha Hlt Hb E HSz) as [HX HY]. split; [exact HX|]. split; [|contradiction].
      intros HA. exfalso. apply Exists_exists in HY. destruct HY as (r & Hr & Hne). apply Hne. unfold all_empty in HA.
      rewrite Forall_forall in HA. exact (HA r Hr). }
  destruct HR as [HBR HRE].
  set (indices := map (fun q => Z.of_nat (bucket sha seed n q 0)) queries).
  assert (Hine : indices <> []) by (unfold indices; destruct queries; [congruence|discriminate]).
  assert (Hir : Forall (fun q => 0 <= q < n)%Z indices).
  { apply Forall_forall. intros x Hx. apply in_map_iff in Hx. destruct Hx as (q & <- & _). pose proof (bucket_lt sha p Hsha Hlt q 0) as H. fold n seed in H. clear - H Hlt. lia. }
  destruct (request_part aes F clog n indices seeds pad Hlt HL Hine Hir) as (d & keys & E0 & E1 & D1 & D2 & D3 & D4 & D5 & D6 & N0 & N1 & L0 & L1).
  set (f := sha256_hash_function sha (seed ++ str_cat 0)).
  set (c := {| sc_dense := {| dc_dpf := d; dc_size := n |}; sc_function := f; sc_buckets := n; sc_fingerprint := fp |}).
  set (s0 := {| ss_params := p; ss_dpf := d; ss_db := d0; ss_fingerprint := fp |}).
  set (s1 := {| ss_params := p; ss_dpf := d; ss_db := d1; ss_fingerprint := fp |}).
  set (q0 := {| pq_keys := map fst keys; pq_fingerprint := to_uint32 fp |}).
  set (q1 := {| pq_keys := map snd keys; pq_fingerprint := to_uint32 fp |}).
  set (h := {| hq_plain := Some q1; hq_seed := pad |}).
  assert (Hcl : simple_client_create sha F clog (PpSimple p) true = Ok c).
  { unfold simple_client_create. cbn [check bind]. fold n. assert (negb (n <=? 0)%Z = true) as -> by (clear - Hlt; lia).
    cbn [check bind]. unfold hash_family_from_config. fold seed. rewrite Pf.
    replace (negb (Nat.eqb (length seed) 0)) with true by (fold seed in Ps; destruct seed; [congruence|reflexivity]). cbn [Z.eqb Pos.eqb check bind].
    rewrite Hfp. cbn [bind]. unfold create_hash_functions. change (Z.to_nat 1) with 1%nat. change (1 <? 0)%Z with false.
    cbn [negb check bind seq map rev app]. rewrite D2. cbn [bind]. rewrite to_int32_id by (clear - Hlt; lia). reflexivity. }
  assert (Hsv : forall db, sd_bits db = n -> simple_create_plain sha F clog p (Some db)
                = Ok {| ss_params := p; ss_dpf := d; ss_db := db; ss_fingerprint := fp |}).
  { intros db Hdb. unfold simple_create_plain. fold n. assert (negb (n <=? 0)%Z = true) as -> by (clear - Hlt; lia).
    rewrite Pf. cbn [Z.eqb negb check bind]. rewrite Hdb, Z.eqb_refl. cbn [check bind]. rewrite D1. cbn [bind]. fold seed. rewrite Hfp. reflexivity. }
  assert (HC : simple_create_plain_requests aes c queries seeds pad = Ok (q0, h, CsSimple pad queries)).
  { unfold simple_create_plain_requests. cbn [sc_function sc_buckets sc_dense sc_fingerprint c].
    assert (HM : mapM (fun q => f q n) queries = Ok indices).
    { apply mapM_map_ok. intros q _. exact (proj1 (function_value sha seed q n 0 Hsha Hlt)). }
    unfold hash_function in *. rewrite HM. cbn [bind]. rewrite D3. reflexivity. }
  pose proof Hch as [HS HE]. destruct (HE (ch_ser ch h)) as (e & X1 & X2).
  assert (HX : simple_exchange aes F clog sha ch p t0 t1 d0 d1 queries seeds pad =
    (response <- handle_request aes (ch_par ch) (simple_handle_plain aes t0 s0)
       (Leader (honest_sender (handle_request aes (ch_par ch) (simple_handle_plain aes t1 s1)
          (Helper (ch_dec ch) (ch_context ch))))) (RqLeader (Some q0) (Some e)) ;; simple_handle_response aes response (CsSimple pad queries))).
  { unfold simple_exchange. rewrite Hcl. cbn [bind]. rewrite !Hsv by assumption. cbn [bind]. unfold create_request. rewrite HC. cbn [bind].
    unfold to_leader_request. rewrite X1. reflexivity. }
  assert (HP : forall t db keys E, target_ok t -> holds (sd_dense db) R -> keys <> [] -> mapM (dense_expand aes d) keys = Ok E -> E <> [] ->
     Forall (fun e => length e = nblocks clog n) E ->
     plain_outcome (kvs = [] \/ (31 <= clog n)%Z) (overflows clog n t)
       (simple_handle_plain aes t {| ss_params := p; ss_dpf := d; ss_db := db; ss_fingerprint := fp |}
          (RqPlain {| pq_keys := keys; pq_fingerprint := to_uint32 fp |}))).
  { clear - Hlt HL HBR HRE HRl. intros t db keys E HT HH Hk HM HEn HEl. unfold simple_handle_plain. cbn [ss_dpf ss_fingerprint ss_db].
    rewrite (selections_ok aes d fp keys E Hk HM). cbn [bind].
    destruct (product_outcome clog n t (sd_dense db) R E Hlt HL HT HH HBR ltac:(lia) HEn HEl) as ((P1 & P2 & P3) & P4).
    split; [|split]; intros HA; [rewrite P1 by tauto; reflexivity| |]; intros HO.
    - rewrite P2 by tauto. reflexivity.
    - assert (HA' : ~ (all_empty R \/ (31 <= clog n)%Z)) by tauto. specialize (P3 HA' HO). destruct (inner_product_with t (sd_dense db) E) as [r| | |]; try discriminate. reflexivity. }
  rewrite HX. apply (plain_to_exchange aes ch _ _ _ _ _ q0 q1 h e); try assumption; try reflexivity.
  - apply HP with (E := E0); try assumption. destruct keys; [congruence|discriminate].
  - apply HP with (E := E1); try assumption. destruct keys; [congruence|discriminate].
  - apply overflows_dec.
  - cbv zeta. intros HRj HO. rewrite <- HX.
    assert (Hc31 : (clog n < 31)%Z) by lia.
    apply (C41_partial aes F clog sha ch ops0 ops1 a0 a1 d0 d1 t0 t1 queries seeds pad); try assumption.
    + tauto.
    + apply fits_overflow; tauto.
    + apply fits_overflow; tauto.
Qed.
Print Assumptions C41_exact.
(** C41_nonvacuous has a database with pairs; this one is without, and every query is rejected. *)
Example C41_exact_nonvacuous : exists d, gs_records (gsrun [SSetParams xr_params]) = [] /\
  simple_build xq_sha xa_alloc (srun [SSetParams xr_params]) = Ok d /\ sp_buckets (gs_params (gsrun [SSetParams xr_params])) = 3%Z.
Proof. eexists. split; [reflexivity|]. split; [vm_compute; reflexivity|reflexivity]. Qed.
