(** C39 and C40 without conditions on sizes: every outcome of an exchange over a cuckoo hashed database. *)
From Coq Require Import List NArith ZArith QArith Lia Bool ZifyBool ZifyNat ZifyN Permutation.
From Verif Require Import Base ListUtil ValueTypesModel ValueTypesSpec ValueTypesProofs TypeProofs DpfModel DpfWf DpfSpec
  DpfExamples PirDbModel PirSpec PirDbProofs PirIpProofs PirBuildProofs PirModel PirProtoSpec PirProtoProofs
  PirDenseProofs PropertiesPir PropertiesPirProto HashModel HashSpec HashProofs SparseModel SparseSpec SparseProofs SparseDbProofs PropertiesSparse
  PropertiesPirSafety PropertiesPirExact PropertiesIpExact PropertiesPirOutcomes PropertiesPirEnd.
Import ListNotations.
Ltac Zify.zify_post_hook ::= Z.div_mod_to_equations.
Open Scope N_scope.

(** [cuckoo_setup] without its conditions that the DPF fits and that some value is not empty. *)
Record cuckoo_built (clog : Z -> Z) (sha : bytes -> bytes) (rnd : nat -> nat) (ch : channel) (ops0 ops1 : list cop)
    (ak0 av0 ak1 av1 : alloc) (t0 t1 : target) (d0 d1 : cuckoo_db) (K V : list bytes) : Prop := {
  cb_sha : forall x, length (sha x) = 32%nat;
  cb_rnd : forall i, (rnd i < Z.to_nat (cp_functions (gs_params (gcrun ops0))))%nat;
  cb_alloc : alloc_ok ak0 /\ alloc_ok av0 /\ alloc_ok ak1 /\ alloc_ok av1;
  cb_channel : channel_ok ch;
  cb_records : Forall (fun kv => is_bytes (fst kv) /\ is_bytes (snd kv) /\
      (Z.of_nat (length (fst kv)) < 2147483648)%Z /\ (Z.of_nat (length (snd kv)) < 2147483648)%Z) (gs_records (gcrun ops0));
  cb_same : same_inserts (gcrun ops0) (gcrun ops1);
  cb_size0 : total_bytes (gs_records (gcrun ops0)) + 16 * Z.to_N (cp_buckets (gs_params (gcrun ops0))) < 2 ^ 62;
  cb_size1 : total_bytes (gs_records (gcrun ops1)) + 16 * Z.to_N (cp_buckets (gs_params (gcrun ops0))) < 2 ^ 62;
  cb_built0 : cuckoo_build sha rnd ak0 av0 (crun ops0) = Ok d0;
  cb_built1 : cuckoo_build sha rnd ak1 av1 (crun ops1) = Ok d1;
  cb_clog : clog_ok clog (cp_buckets (gs_params (gcrun ops0)));
  cb_targets : target_ok t0 /\ target_ok t1;
  cb_keys : holds (cd_keys d0) K;
  cb_values : holds (cd_values d0) V
}.

Lemma built_facts : forall clog sha rnd ch ops0 ops1 ak0 av0 ak1 av1 t0 t1 d0 d1 K V,
  let g := gcrun ops0 in let p := gs_params g in
  cuckoo_built clog sha rnd ch ops0 ops1 ak0 av0 ak1 av1 t0 t1 d0 d1 K V ->
  holds (cd_keys d1) K /\ holds (cd_values d1) V /\
  Z.of_nat (cd_bits d0) = cp_buckets p /\ Z.of_nat (cd_bits d1) = cp_buckets p /\
  byte_records K /\ byte_records V /\ Z.of_nat (length K) = cp_buckets p /\ Z.of_nat (length V) = cp_buckets p /\
  (0 < cp_buckets p < 2147483648)%Z /\ (0 < cp_functions p)%Z /\ hf_seed (cp_hash p) <> [] /\ hf_family (cp_hash p) = 1%Z /\
  (all_empty K -> all_empty V).
Proof.
  intros clog sha rnd ch ops0 ops1 ak0 av0 ak1 av1 t0 t1 d0 d1 K V g p
    [Hsha Hrnd (Hak0 & Hav0 & Hak1 & Hav1) Hch Hbytes [HSp HSv] Hsize0 Hsize1 HB0 HB1 HL [T0 T1] HK HV].
  pose proof (crun_sim ops0) as Hsim0. fold g in Hsim0. pose proof (crun_built _ _ _ _ _ _ HB0) as Hnb0. fold g in Hnb0.
  pose proof (crun_sim ops1) as Hsim1. pose proof (crun_built _ _ _ _ _ _ HB1) as Hnb1.
  set (g1 := gcrun ops1) in *. set (kvs := gs_records g) in *. fold g in HSp, HSv, Hrnd, Hbytes, Hsize0, Hsize1, HL.
  fold p in Hrnd, Hsize0, Hsize1, HL.
  fold kvs in Hbytes, Hsize0.
  pose proof (build_params sha rnd ak0 av0 _ g Hsha Hsim0 Hnb0 d0 HB0) as HP0.
  pose proof (build_params sha rnd ak1 av1 _ g1 Hsha Hsim1 Hnb1 d1 HB1) as HP1.
  destruct (build_total sha rnd ak0 av0 _ g Hsha Hsim0 Hnb0 Hrnd Hak0 Hav0 HP0 Hsize0) as (d0' & c0 & FL0 & E0 & ST0 & HK0 & HV0 & Hs0 & Hb0).
  assert (Hrnd1 : forall i, (rnd i < Z.to_nat (cp_functions (gs_params g1)))%nat) by (rewrite HSp; exact Hrnd).
  assert (Hsize1' : total_bytes (gs_records g1) + 16 * Z.to_N (cp_buckets (gs_params g1)) < 2 ^ 62) by (rewrite HSp; exact Hsize1).
  destruct (build_total sha rnd ak1 av1 _ g1 Hsha Hsim1 Hnb1 Hrnd1 Hak1 Hav1 HP1 Hsize1') as (d1' & c1 & FL1 & E1 & ST1 & HK1 & HV1 & Hs1 & Hb1).
  rewrite HSp, (map_of_ext (gs_records g1) (gs_records g) HSv), FL0 in FL1. injection FL1 as <-.
  rewrite HB0 in E0. rewrite HB1 in E1. cbn [fst] in E0, E1. rewrite HSp in E1, Hb1. fold p in E0, E1, Hb0, Hb1.
  destruct (Z.eqb_spec (to_int32 (cp_buckets p)) (cp_buckets p)) as [Hn|]; [|discriminate].
  injection E0 as <-. injection E1 as <-.
  pose proof (holds_inj _ _ _ HK HK0) as EK. pose proof (holds_inj _ _ _ HV HV0) as EV.
  assert (EV1 : map (slot_value (gs_records g1)) (ck_table c0) = V).
  { rewrite EV. apply map_ext. intros [e|]; [|reflexivity]. cbn [slot_value]. rewrite HSv. reflexivity. }
  rewrite <- EK in HK1. rewrite EV1 in HV1.
  assert (HCT : contents sha g K V (ck_stash c0)).
  { rewrite EK, EV. apply stored_contents; [exact ST0|exact Hn|]. apply HP0. }
  assert (Hpos : (0 < cp_buckets p < 2147483648)%Z).
  { destruct HP0 as (Q & _). fold p in Q. rewrite Hn in Q. split; [exact Q|]. rewrite <- Hn. unfold to_int32. clear. lia. }
  destruct HP0 as (_ & _ & Pk & Ps & Pf & Pe & _). fold p in Pk, Ps, Pf.
  assert (HInb : forall e v, first_value kvs e = Some v -> is_bytes e /\ is_bytes v /\
             (Z.of_nat (length e) < 2147483648)%Z /\ (Z.of_nat (length v) < 2147483648)%Z).
  { intros e v H. apply first_value_in in H. exact (proj1 (Forall_forall _ _) Hbytes (e, v) H). }
  assert (HKf : forall i key, nth_error K i = Some key -> key <> [] -> exists v, first_value kvs key = Some v).
  { intros i key Hi Hkn. apply in_first_value. eapply Permutation_in; [symmetry; exact (ct_perm _ _ _ _ _ HCT)|]. apply in_app_iff. right.
    apply filter_In. split; [eapply nth_error_In, Hi|]. destruct key; [congruence|reflexivity]. }
  assert (HKV : forall i v, nth_error V i = Some v -> exists key, nth_error K i = Some key).
  { intros i v Hi. destruct (nth_error K i) as [key|] eqn:Ek; [eauto|]. apply nth_error_None in Ek. rewrite <- (ct_values _ _ _ _ _ HCT) in Ek.
    apply nth_error_None in Ek. congruence. }
  split; [exact HK1|]. split; [exact HV1|]. split; [rewrite Hb0; exact Hn|]. split; [rewrite Hb1; exact Hn|].
  split.
  { apply Forall_forall. intros key Hkey. apply In_nth_error in Hkey. destruct Hkey as [i Hi]. destruct key as [|x key].
    - split; [constructor|reflexivity].
    - destruct (HKf i _ Hi ltac:(discriminate)) as [v Hv]. destruct (HInb _ _ Hv) as (Q1 & _ & Q2 & _). split; assumption. }
  split.
  { apply Forall_forall. intros v Hv. apply In_nth_error in Hv. destruct Hv as [i Hi]. destruct (HKV i v Hi) as [key Ek].
    destruct key as [|x key].
    - rewrite (ct_empty _ _ _ _ _ HCT i Ek) in Hi. injection Hi as <-. split; [constructor|reflexivity].
    - rewrite (ct_value _ _ _ _ _ HCT i _ Ek ltac:(discriminate)) in Hi. destruct (HInb _ _ Hi) as (_ & Q1 & _ & Q2). split; assumption. }
  split; [apply HCT|]. split; [rewrite (ct_values _ _ _ _ _ HCT); apply HCT|]. split; [exact Hpos|]. split; [clear - Pk; lia|].
  split; [exact Ps|]. split; [exact Pf|].
  intros HA. apply Forall_forall. intros v Hv. apply In_nth_error in Hv. destruct Hv as [i Hi]. destruct (HKV i v Hi) as [key Ek].
  assert (key = []) as -> by (exact (proj1 (Forall_forall _ _) HA key (nth_error_In _ _ Ek))).
  pose proof (eq_trans (eq_sym (ct_empty _ _ _ _ _ HCT i Ek)) Hi) as C. injection C as <-. reflexivity.
Qed.

(** The two inner products of a server. *)
Lemma cuckoo_plain_outcome : forall aes clog n t d fp db K V keys E p,
  (0 < n < 2147483648)%Z -> clog_ok clog n -> target_ok t ->
  holds (cd_keys db) K -> holds (cd_values db) V -> byte_records K -> byte_records V ->
  Z.of_nat (length K) = n -> Z.of_nat (length V) = n -> (all_empty K -> all_empty V) ->
  keys <> [] -> mapM (dense_expand aes d) keys = Ok E -> E <> [] -> Forall (fun e => length e = nblocks clog n) E ->
  plain_outcome (all_empty K \/ (31 <= clog n)%Z \/ (all_empty V /\ ~ overflows clog n t)) (overflows clog n t)
    (cuckoo_handle_plain aes t {| cs_params := p; cs_dpf := d; cs_db := db; cs_fingerprint := fp |}
       (RqPlain {| pq_keys := keys; pq_fingerprint := to_uint32 fp |})).
Proof.
  intros aes clog n t d fp db K V keys E p Hn HL HT HK HV HBK HBV HlK HlV HKV Hk HM HEn HEl.
  unfold cuckoo_handle_plain. cbn [cs_dpf cs_fingerprint cs_db]. rewrite (selections_ok aes d fp keys E Hk HM). cbn [bind].
  destruct (product_outcome clog n t (cd_keys db) K E Hn HL HT HK HBK ltac:(lia) HEn HEl) as ((P1 & P2 & P3) & _).
  destruct (product_outcome clog n t (cd_values db) V E Hn HL HT HV HBV ltac:(lia) HEn HEl) as ((Q1 & Q2 & Q3) & _).
  pose proof (product_exact clog n t (cd_keys db) K E Hn HL HT HK HBK ltac:(lia) HEn HEl) as XK.
  pose proof (product_exact clog n t (cd_values db) V E Hn HL HT HV HBV ltac:(lia) HEn HEl) as XV.
  unfold cuckoo_inner_product.
  split; [|split].
  - intros [HA|[HA|[HA HO]]]; try (rewrite P1 by tauto; reflexivity).
    destruct (Z_le_dec 31 (clog n)) as [Hc|Hc]; [rewrite P1 by tauto; reflexivity|].
    destruct (inner_product_with t (cd_keys db) E) as [r|e| |]; cbn [bind].
    + rewrite Q1 by tauto. reflexivity.
    + destruct XK as [-> _]. reflexivity.
    + contradiction.
    + exfalso. destruct XK as [H1 H2]. apply HO. exact H2.
  - intros HA HO. rewrite P2 by tauto. reflexivity.
  - intros HA HO. assert (NK : ~ (all_empty K \/ (31 <= clog n)%Z)) by tauto. assert (NV : ~ (all_empty V \/ (31 <= clog n)%Z)) by tauto.
    specialize (P3 NK HO). specialize (Q3 NV HO).
    destruct (inner_product_with t (cd_keys db) E) as [rk| | |]; try discriminate.
    destruct (inner_product_with t (cd_values db) E) as [rv| | |]; try discriminate. cbn [bind].
    destruct XK as [-> _]. destruct XV as [-> _]. rewrite !map_length, Nat.eqb_refl. reflexivity.
Qed.

(** The exchange is rejected if the table holds no key, if the DPF has 2^31 blocks or, when no inner product
    overflows, if all values are empty; it has undefined behaviour if an inner product overflows; otherwise
    each query is answered with the padded value in the first of its buckets whose key agrees with it. *)
Theorem C39_C40_outcomes : forall aes F clog sha rnd ch ops0 ops1 ak0 av0 ak1 av1 t0 t1 d0 d1 K V queries seeds pad,
  let p := gs_params (gcrun ops0) in let n := cp_buckets p in
  let overflow := overflows clog n t0 \/ overflows clog n t1 in
  let rejected := all_empty K \/ (31 <= clog n)%Z \/ (all_empty V /\ ~ overflow) in
  let r := cuckoo_exchange aes F clog sha ch p t0 t1 d0 d1 queries seeds pad in
  cuckoo_built clog sha rnd ch ops0 ops1 ak0 av0 ak1 av1 t0 t1 d0 d1 K V ->
  queries <> [] -> length pad = 16%nat ->
  (rejected -> r = Err INVALID_ARGUMENT) /\
  (~ rejected -> overflow -> r = UB) /\
  (~ rejected -> ~ overflow ->
   exists answers, r = Ok answers /\
     Forall2 (fun q a =>
       let b := bucket sha (hf_seed (cp_hash p)) (cp_buckets p) q in
       match a with
       | Some w => exists j, (j < Z.to_nat (cp_functions p))%nat /\ (b j < length K)%nat /\ agrees K q (b j) /\
                     (forall j', (j' < j)%nat -> ~ agrees K q (b j')) /\ w = zero_padded (longest V) (nth (b j) V [])
       | None => forall j, (j < Z.to_nat (cp_functions p))%nat -> ~ agrees K q (b j)
       end) queries answers).
Proof.
  intros aes F clog sha rnd ch ops0 ops1 ak0 av0 ak1 av1 t0 t1 d0 d1 K V queries seeds pad p n overflow rejected r HS Hne Hpad.
  destruct (built_facts clog sha rnd ch ops0 ops1 ak0 av0 ak1 av1 t0 t1 d0 d1 K V HS)
    as (K1 & V1 & B0 & B1 & BK & BV & LK & LV & Hn & Hk & Hseed & Hfam & HKV).
  fold p in B0, B1, LK, LV, Hn, Hk, Hseed, Hfam. fold n in B0, B1, LK, LV, Hn.
  assert (HG : ~ rejected -> ~ overflow -> exists answers, r = Ok answers /\
     Forall2 (fun q a =>
       let b := bucket sha (hf_seed (cp_hash p)) (cp_buckets p) q in
       match a with
       | Some w => exists j, (j < Z.to_nat (cp_functions p))%nat /\ (b j < length K)%nat /\ agrees K q (b j) /\
                     (forall j', (j' < j)%nat -> ~ agrees K q (b j')) /\ w = zero_padded (longest V) (nth (b j) V [])
       | None => forall j, (j < Z.to_nat (cp_functions p))%nat -> ~ agrees K q (b j)
       end) queries answers).
  { intros NR NO. unfold rejected in NR. assert (Hc : (clog n < 31)%Z) by lia. unfold overflow in NR, NO.
    apply (C39_C40_exact aes F clog sha rnd ch ops0 ops1 ak0 av0 ak1 av1 t0 t1 d0 d1 K V queries seeds pad); [|assumption|assumption].
    destruct HS. constructor; try assumption.
    - split; apply fits_overflow; (exact Hc || (clear - NO; tauto)).
    - apply not_empty_ok; [exact BV|clear - NR NO; tauto]. }
  destruct HS as [Hsha _ _ Hch _ _ _ _ _ _ HL [T0 T1] K0 V0]. fold p in HL. fold n in HL.
  set (seed := hf_seed (cp_hash p)) in *. set (k := Z.to_nat (cp_functions p)) in *.
  set (R := repeat [1] (Z.to_nat n) : list bytes).
  assert (HR : records_ok R).
  { split.
    - apply Forall_forall. intros x Hx. apply repeat_spec in Hx. subst x. split; [repeat constructor|]. cbn [length]. lia.
    - apply Exists_exists. exists [1]. split; [|discriminate]. unfold R. destruct (Z.to_nat n) eqn:E; [lia|]. left. reflexivity. }
  assert (HlR : Z.of_nat (length R) = n) by (unfold R; rewrite repeat_length; lia).
  set (ix := indices sha p queries).
  assert (Hir : Forall (fun q => 0 <= q < n)%Z ix) by (exact (indices_range sha p R Hsha HlR HR (proj2 Hn) queries)).
  assert (Hine : ix <> []).
  { intros C. apply (f_equal (@length Z)) in C. unfold ix, indices in C. rewrite grid_length in C. cbn [length] in C.
    destruct queries; [congruence|]. cbn [length] in C. clear - C Hk. nia. }
  destruct (request_part aes F clog n ix seeds pad Hn HL Hine Hir) as (d & keys & E0 & E1 & D1 & D2 & D3 & D4 & D5 & D6 & N0 & N1 & L0 & L1).
  destruct (fingerprint_total sha seed Hsha) as (fp & Hfp & _).
  set (s0 := {| cs_params := p; cs_dpf := d; cs_db := d0; cs_fingerprint := fp |}).
  set (s1 := {| cs_params := p; cs_dpf := d; cs_db := d1; cs_fingerprint := fp |}).
  set (q0 := {| pq_keys := map fst keys; pq_fingerprint := to_uint32 fp |}).
  set (q1 := {| pq_keys := map snd keys; pq_fingerprint := to_uint32 fp |}).
  set (h := {| hq_plain := Some q1; hq_seed := pad |}).
  pose proof Hch as [HSer HE]. destruct (HE (ch_ser ch h)) as (e & X1 & X2).
  assert (HX : exists f, r = (response <- handle_request aes (ch_par ch) (cuckoo_handle_plain aes t0 s0)
       (Leader (honest_sender (handle_request aes (ch_par ch) (cuckoo_handle_plain aes t1 s1)
          (Helper (ch_dec ch) (ch_context ch))))) (RqLeader (Some q0) (Some e)) ;; f response)).
  { unfold r, cuckoo_exchange.
    rewrite (client_ok F clog sha p R HlR HR (proj2 Hn) Hk Hseed Hfam d D2 fp Hfp). cbn [bind].
    rewrite (server_ok F clog sha p R HlR HR (proj2 Hn) Hk Hfam d0 d B0 D1 fp Hfp), (server_ok F clog sha p R HlR HR (proj2 Hn) Hk Hfam d1 d B1 D1 fp Hfp).
    cbn [bind]. unfold create_request, cuckoo_create_plain_requests. cbn [cc_buckets cc_functions cc_dense cc_fingerprint].
    rewrite (indices_ok sha p R Hsha HlR HR (proj2 Hn)). cbn [bind].
    match goal with |- context [dense_create_plain_requests aes _ ?l] => change l with ix end.
    fold n. rewrite D3. cbn [bind]. unfold to_leader_request, add_fingerprint. cbn [bind hq_plain pq_keys hq_seed]. match goal with |- context [ch_ser ch ?x] => change x with h end. rewrite X1. cbn [bind]. match goal with |- context [RqLeader (Some ?x) _] => change x with q0 end. eexists. reflexivity. }
  destruct HX as [f HX].
  assert (Kne0 : map fst keys <> []) by (destruct keys; [congruence|discriminate]).
  assert (Kne1 : map snd keys <> []) by (destruct keys; [congruence|discriminate]).
  destruct (cuckoo_plain_outcome aes clog n t0 d fp d0 K V (map fst keys) E0 p Hn HL T0 K0 V0 BK BV LK LV HKV Kne0 D5 N0 L0) as (P0 & P0' & P0'').
  destruct (cuckoo_plain_outcome aes clog n t1 d fp d1 K V (map snd keys) E1 p Hn HL T1 K1 V1 BK BV LK LV HKV Kne1 D6 N1 L1) as (P1 & P1' & P1'').
  fold q0 s0 in P0, P0', P0''. fold q1 s1 in P1, P1', P1''.
  destruct (leader_fails aes (ch_par ch) (cuckoo_handle_plain aes t0 s0) (cuckoo_handle_plain aes t1 s1) (ch_dec ch) (ch_context ch) q0 e (ch_ser ch h) h q1 X2 (HSer h) eq_refl)
    as (F1 & F2 & F3).
  split; [|split; [|exact HG]].
  - intros HRj. unfold rejected, overflow in HRj. rewrite HX, F1; [reflexivity|apply P0|apply P1]; clear - HRj; tauto.
  - intros NR HO. rewrite HX. unfold rejected, overflow in *. destruct (overflows_dec clog n t0) as [O0|O0].
    + rewrite F2; [reflexivity|]. apply P0'; clear - NR O0; tauto.
    + destruct HO as [HO|HO]; [contradiction|]. assert (HU : cuckoo_handle_plain aes t1 s1 (RqPlain q1) = UB) by (apply P1'; clear - NR HO; tauto).
      destruct (cuckoo_handle_plain aes t0 s0 (RqPlain q0)) as [a|x| |] eqn:E.
      * rewrite (F3 a); auto.
      * clear - E HU HSer X2. unfold handle_request, handle_leader_request, honest_sender, handle_helper_request, while_waiting.
        cbn [bind]. rewrite X2. cbn [bind]. rewrite (HSer h). cbn [bind h hq_plain]. rewrite E, HU. reflexivity.
      * exfalso. assert (HD : all_empty V \/ ~ all_empty V).
        { clear. induction V as [|v l IH]; [left; constructor|]. destruct v; [|right; intros H; inversion H; discriminate].
          destruct IH as [IH|IH]; [left; constructor; auto|right; intros H; inversion H; contradiction]. }
        destruct HD as [HD|HD]; [specialize (P0 ltac:(clear - HD O0; tauto)); discriminate|].
        assert (NR0 : ~ (all_empty K \/ (31 <= clog n)%Z \/ all_empty V /\ ~ overflows clog n t0)) by (clear - NR HD; tauto).
        specialize (P0'' NR0 O0). discriminate.
      * rewrite F2; reflexivity.
Qed.
Print Assumptions C39_C40_outcomes.
(** C39_C40_nonvacuous meets the hypotheses with values that are not empty; here all values are empty. *)
Definition xq_none_db : res cuckoo_db := Eval vm_compute in cuckoo_build xq_sha xq_rnd xa_alloc xa_alloc (crun xq_none).
Example C39_C40_outcomes_nonvacuous :
  match xq_none_db with
  | Ok d => cuckoo_built xp_clog xq_sha xq_rnd xq_channel xq_none xq_none xa_alloc xa_alloc xa_alloc xa_alloc xt_t xp_scalar d d [[]; []; [97]] [[]; []; []]
  | _ => False
  end /\ ~ all_empty [[]; []; [97]] /\ all_empty [[]; []; []] /\ ~ overflows xp_clog 3 xt_t /\ ~ overflows xp_clog 3 xp_scalar.
Proof.
  split.
  { unfold xq_none_db. constructor.
    - exact xq_sha_ok.
    - exact xq_rnd_ok.
    - repeat split; exact xa_alloc_ok.
    - exact xq_channel_ok.
    - solve_records.
    - split; reflexivity.
    - reflexivity.
    - reflexivity.
    - vm_compute. reflexivity.
    - vm_compute. reflexivity.
    - apply xp_clog_ok. reflexivity.
    - split; [exact xt_t_ok|exact xp_scalar_ok].
    - solve_holds.
    - solve_holds. }
  split; [intros H; inversion H as [|? ? _ H2]; inversion H2 as [|? ? _ H3]; inversion H3; discriminate|]. split; [repeat constructor|].
  split; intros [_ H]; vm_compute in H; destruct H; discriminate.
Qed.
