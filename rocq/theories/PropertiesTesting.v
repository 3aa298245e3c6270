(** Properties of the testing library, of BasicRng and of FarmHashFunction: C57-C61. *)
From Coq Require Import List NArith ZArith Bool Lia ZifyBool ZifyNat ZifyN.
From Verif Require Import Base ListUtil ValueTypesModel DpfModel DpfExamples PirDbModel PirSpec PirDbProofs PirIpProofs
  PirModel PirProtoSpec PirDenseProofs PropertiesPir PropertiesPirProto HashModel SparseDbProofs PropertiesSparseParams TestingModel.
Import ListNotations.
Open Scope N_scope.
Local Ltac Zify.zify_post_hook ::= Z.div_mod_to_equations.

(** ** C57: the reference inner product of the tests agrees with the database *)

(** The byte-wise XOR of the records whose bit is set, zero-padded to [size] bytes. *)
Definition bits_xor (records : list bytes) (size : nat) (bits : list bool) : bytes :=
  map (fun p => xor_all (map (fun i => if nth i bits false then nth p (nth i records []) 0 else 0)
                             (seq 0 (length records)))) (seq 0 size).

Lemma pack_block_bit : forall bits i m j,
  N.testbit (fold_left (fun block j =>
               match nth_error bits (i * 128 + j) with
               | Some true => N.lor block (N.shiftl 1 (N.of_nat j))
               | _ => block
               end) (seq 0 m) 0) (N.of_nat j) = Nat.ltb j m && nth (i * 128 + j) bits false.
Proof.
  intros bits i m j. induction m as [|m IH]; [rewrite N.bits_0; reflexivity|].
  rewrite seq_S, fold_left_app. cbn [fold_left Nat.add].
  assert (Hn : forall k, nth k bits false = match nth_error bits k with Some b => b | None => false end).
  { intros k. destruct (nth_error bits k) eqn:E; [exact (nth_error_nth _ _ _ E)|apply nth_overflow, nth_error_None; exact E]. }
  destruct (Nat.eqb_spec j m) as [->|Hne].
  - replace (Nat.ltb m (S m)) with true by (symmetry; apply Nat.ltb_lt; lia). rewrite (Hn (i * 128 + m)%nat).
    destruct (nth_error bits (i * 128 + m)) as [[]|].
    + rewrite N.lor_spec, N.shiftl_1_l, N.pow2_bits_true, orb_true_r. reflexivity.
    + rewrite IH, Nat.ltb_irrefl. reflexivity.
    + rewrite IH, Nat.ltb_irrefl. reflexivity.
  - replace (Nat.ltb j (S m)) with (Nat.ltb j m) by lia.
    destruct (nth_error bits (i * 128 + m)) as [[]|]; try exact IH.
    rewrite N.lor_spec, N.shiftl_1_l, N.pow2_bits_false by lia. rewrite orb_false_r. exact IH.
Qed.
Lemma pack_bit : forall bits i j, N.testbit (pack_block bits i) (N.of_nat j) = Nat.ltb j 128 && nth (i * 128 + j) bits false.
Proof. intros bits i j. unfold pack_block. apply pack_block_bit. Qed.
Lemma bits_lt : forall x n, (forall j, N.testbit x (N.of_nat j) = true -> (j < n)%nat) -> x < 2 ^ N.of_nat n.
Proof.
  intros x n H. destruct (N.eq_dec x 0) as [->|Hz]; [pose proof (N.pow_nonzero 2 (N.of_nat n)); lia|].
  apply N.log2_lt_pow2; [lia|]. specialize (H (N.to_nat (N.log2 x))). rewrite N2Nat.id in H. pose proof (H (N.bit_log2 _ Hz)). lia.
Qed.
Lemma pack_block_lt : forall bits i, pack_block bits i < 2 ^ 128.
Proof.
  intros bits i. apply (bits_lt _ 128). intros j H. rewrite pack_bit in H. apply andb_true_iff in H. apply Nat.ltb_lt, H.
Qed.

(** The packed blocks hold exactly the given bits. *)
Theorem C57_pack : forall bits, (Z.of_nat (length bits) <= 2147483648)%Z ->
  exists blocks, pack_selection_bits bits = Ok blocks /\ Z.of_nat (length blocks) = ((Z.of_nat (length bits) + 127) / 128)%Z /\
    Forall (fun b => b < 2 ^ 128) blocks /\ forall i, selected blocks i = nth i bits false.
Proof.
  intros bits Hl. unfold pack_selection_bits. set (nb := Nat.div (length bits + 127) 128).
  assert (Hnb : Z.of_nat nb = ((Z.of_nat (length bits) + 127) / 128)%Z) by (unfold nb; lia).
  assert (E : to_int32 (Z.of_nat nb) = Z.of_nat nb) by (clearbody nb; unfold to_int32; lia).
  rewrite E. replace (Z.of_nat nb <=? 16777216)%Z with true by (clearbody nb; lia). rewrite Nat2Z.id.
  eexists. split; [reflexivity|]. split; [rewrite map_length, seq_length; exact Hnb|]. split.
  - apply Forall_map, Forall_forall. intros i _. apply pack_block_lt.
  - intros i. unfold selected. destruct (Nat.lt_ge_cases (Nat.div i 128) nb) as [H|H].
    + rewrite (nth_indep _ 0 (pack_block bits 0)) by (rewrite map_length, seq_length; exact H).
      rewrite map_nth, seq_nth by exact H. rewrite pack_bit.
      replace (Nat.ltb _ 128) with true by (symmetry; apply Nat.ltb_lt, Nat.mod_upper_bound; discriminate).
      cbn [Nat.add andb]. f_equal. clear. lia.
    + rewrite (nth_overflow (map _ _)) by (rewrite map_length, seq_length; exact H). rewrite N.bits_0. symmetry. apply nth_overflow.
      unfold nb in H. clear - H. lia.
Qed.
Print Assumptions C57_pack.

Lemma xor_into_ok : forall v r, (length v <= length r)%nat ->
  exists r', xor_into r v = Ok r' /\ length r' = length r /\ forall p, nth p r' 0 = N.lxor (nth p r 0) (nth p v 0).
Proof.
  induction v as [|y v IH]; intros r Hl.
  - exists r. split; [reflexivity|]. split; [reflexivity|]. intros p. replace (nth p [] 0) with 0 by (destruct p; reflexivity).
    rewrite N.lxor_0_r. reflexivity.
  - destruct r as [|x r]; [cbn [length] in Hl; lia|]. cbn [length] in Hl. destruct (IH r ltac:(lia)) as (r' & E & HL & Hp).
    exists (N.lxor x y :: r'). cbn [xor_into]. rewrite E. split; [reflexivity|]. split; [cbn [length]; rewrite HL; reflexivity|].
    intros [|p]; [reflexivity|]. cbn [nth]. apply Hp.
Qed.
Lemma nth_zeros : forall n p, nth p (repeat 0 n) 0 = 0.
Proof. induction n as [|n IH]; intros [|p]; try reflexivity. cbn [repeat nth]. apply IH. Qed.
Lemma unpacked_loop : forall bits values r, length values = length bits ->
  Forall (fun v => N.of_nat (length v) < 2 ^ 31) values ->
  exists r', foldM (fun result (sv : bool * bytes) =>
                let result := if Nat.ltb (length result) (length (snd sv))
                              then result ++ repeat 0 (length (snd sv) - length result) else result in
                if fst sv
                then if N.of_nat (length (snd sv)) <? 2 ^ 31 then xor_into result (snd sv) else UB
                else Ok result) (combine bits values) r = Ok r' /\
    length r' = Nat.max (length r) (longest values) /\
    forall p, nth p r' 0 = N.lxor (nth p r 0)
      (xor_all (map (fun i => if nth i bits false then nth p (nth i values []) 0 else 0) (seq 0 (length values)))).
Proof.
  induction bits as [|b bits IH]; intros [|v values] r Hl Hv; try discriminate Hl.
  - exists r. split; [reflexivity|]. split; [cbn [longest fold_right map]; unfold longest; cbn; lia|]. intros p. cbn. rewrite N.lxor_0_r. reflexivity.
  - inversion Hv as [|? ? Hv0 Hv']; subst. cbn [combine foldM fst snd]. cbv zeta.
    set (r1 := if Nat.ltb (length r) (length v) then r ++ repeat 0 (length v - length r) else r).
    assert (H1 : length r1 = Nat.max (length r) (length v) /\ forall p, nth p r1 0 = nth p r 0).
    { unfold r1. destruct (Nat.ltb_spec (length r) (length v)); [|split; [lia|reflexivity]].
      split; [rewrite app_length, repeat_length; lia|]. intros p. destruct (Nat.lt_ge_cases p (length r)).
      - apply app_nth1. assumption.
      - rewrite app_nth2 by assumption. rewrite nth_zeros, nth_overflow by assumption. reflexivity. }
    destruct H1 as [H1 H1p].
    assert (H2 : exists r2, (if b then if N.of_nat (length v) <? 2 ^ 31 then xor_into r1 v else UB else Ok r1) = Ok r2 /\
              length r2 = length r1 /\ forall p, nth p r2 0 = N.lxor (nth p r 0) (if b then nth p v 0 else 0)).
    { destruct b.
      - replace (N.of_nat (length v) <? 2 ^ 31) with true by (symmetry; apply N.ltb_lt; exact Hv0).
        destruct (xor_into_ok v r1 ltac:(lia)) as (r2 & E & HL & Hp). exists r2. split; [exact E|]. split; [exact HL|].
        intros p. rewrite Hp, H1p. reflexivity.
      - exists r1. split; [reflexivity|]. split; [reflexivity|]. intros p. rewrite H1p, N.lxor_0_r. reflexivity. }
    destruct H2 as (r2 & E2 & HL2 & Hp2). unfold bytes in *. rewrite E2. cbn [bind].
    cbn [length] in Hl. destruct (IH values r2 ltac:(lia) Hv') as (r' & E & HL & Hp). exists r'. split; [exact E|]. split.
    + change (longest (v :: values)) with (Nat.max (length v) (longest values)). lia.
    + intros p. rewrite Hp, Hp2. cbn [length seq map]. rewrite xor_all_cons, <- seq_shift, map_map. cbn [nth].
      rewrite N.lxor_assoc. reflexivity.
Qed.

(** The reference inner product, for any number of records of any lengths. *)
Theorem C57_unpacked : forall bits values, (Z.of_nat (length bits) < 2147483648)%Z ->
  Forall (fun v => (Z.of_nat (length v) < 2147483648)%Z) values ->
  inner_product_unpacked bits values
  = if Nat.eqb (length values) (length bits) then Ok (bits_xor values (longest values) bits) else Err INVALID_ARGUMENT.
Proof.
  intros bits values Hl Hv. unfold inner_product_unpacked. unfold bytes in *.
  destruct (Nat.eqb_spec (length values) (length bits)) as [HE|HE]; [|reflexivity].
  cbn [check bind]. replace (N.of_nat (length bits) <? 2 ^ 31) with true.
  2:{ symmetry. apply N.ltb_lt. change (2 ^ 31) with 2147483648. lia. }
  destruct (unpacked_loop bits values [] HE) as (r & E & HL & Hp).
  { eapply Forall_impl; [|exact Hv]. cbn beta. intros v H. change (2 ^ 31) with 2147483648. lia. }
  transitivity (Ok r); [exact E|]. f_equal. cbn [length Nat.max] in HL. rewrite <- (map_seq_nth _ r 0), HL. unfold bits_xor. apply map_ext.
  intros p. rewrite Hp. replace (nth p [] 0) with 0 by (destruct p; reflexivity). rewrite N.lxor_0_l. reflexivity.
Qed.
Print Assumptions C57_unpacked.

(** The property: the inner product of a database with packed bits is the reference inner product. *)
Theorem C57_agrees : forall t d records bits, target_ok t -> holds d records -> records_ok records ->
  length bits = length records -> (Z.of_nat (length bits) < 2147483648)%Z ->
  exists blocks r, pack_selection_bits bits = Ok blocks /\ inner_product_unpacked bits records = Ok r /\
    inner_product_with t d [blocks] = Ok [r] /\ r = bits_xor records (longest records) bits.
Proof.
  intros t d records bits HT ((views & EC & EV) & _ & HM) [HR HE] HL H31.
  destruct (C57_pack bits ltac:(lia)) as (blocks & EP & HN & _ & HS). exists blocks, (bits_xor records (longest records) bits).
  split; [exact EP|]. split.
  { rewrite C57_unpacked; [rewrite HL, Nat.eqb_refl; reflexivity|exact H31|]. eapply Forall_impl; [|exact HR]. cbn beta. intros v H. apply H. }
  split; [|reflexivity]. unfold inner_product_with. rewrite EC. cbn [bind].
  assert (Hmax : (0 < longest records)%nat).
  { apply Exists_exists in HE. destruct HE as (r & Hr & Hne). apply longest_bound in Hr. destruct r; [congruence|]. cbn [length] in Hr. lia. }
  assert (Hmx : (Z.of_nat (longest records) < 2147483648)%Z).
  { clear - HR. induction HR as [|r l [_ H] _ IH]; [reflexivity|]. change (longest (r :: l)) with (Nat.max (length r) (longest l)). lia. }
  rewrite HM. replace (to_int64 (Z.of_N (N.of_nat (longest records)))) with (Z.of_nat (longest records)) by (unfold to_int64; lia).
  assert (Hlen : length views = length records) by (rewrite <- EV, map_length; reflexivity).
  rewrite (C30_inner_product_partial t views [blocks] (length blocks)); [..|apply Forall_forall; intros v Hv].
  - cbn [map]. rewrite EV, Nat2Z.id. do 2 f_equal. unfold selected_xor, bits_xor. apply map_ext. intros p. f_equal. apply map_ext.
    intros i. rewrite HS. reflexivity.
  - exact HT.
  - repeat constructor.
  - lia.
  - destruct (t_scalar t || Nat.ltb (t_log_lanes t) 4); lia.
  - lia.
  - lia.
  - assert (Hin : In (v_data v) records) by (rewrite <- EV; apply in_map; assumption).
    pose proof (proj1 (Forall_forall _ _) HR _ Hin) as [H1 H2]. pose proof (longest_bound _ _ Hin). repeat split; [exact H1|lia|exact H2].
Qed.
Print Assumptions C57_agrees.

Example C57_nonvacuous : match xp_db with
  | Ok db => holds db xp_records /\ records_ok xp_records /\ target_ok xt_t /\
      let bits := map (fun i => Nat.eqb (Nat.modulo (i * i) 7) 2) (seq 0 300) in
      length bits = length xp_records /\
      exists blocks, pack_selection_bits bits = Ok blocks /\ length blocks = 3%nat /\ inner_product_with xt_t db [blocks] =
        (r <- inner_product_unpacked bits xp_records ;; Ok [r])
  | _ => False
  end.
Proof.
  pose proof C32_nonvacuous as H. unfold xp_db in *. destruct H as (H1 & H2 & _). split; [exact H1|]. split; [exact H2|].
  split; [exact xt_t_ok|]. split; [vm_compute; reflexivity|]. eexists. split; [vm_compute; reflexivity|].
  split; [vm_compute; reflexivity|]. vm_compute. reflexivity.
Qed.

(** ** C58: the test generator makes the requests of the dense client *)

Lemma combine_keys : forall A B C (f : A -> res (B * C)) l acc,
  foldM (fun (acc : list B * list C) a => '(k1, k2) <- f a ;; Ok (fst acc ++ [k1], snd acc ++ [k2])) l acc
  = (ks <- mapM f l ;; Ok (fst acc ++ map fst ks, snd acc ++ map snd ks)).
Proof.
  intros A B C f l. induction l as [|a l IH]; intros acc; cbn [foldM mapM bind map].
  - rewrite !app_nil_r. destruct acc; reflexivity.
  - destruct (f a) as [[k1 k2]| | |]; cbn [bind]; try reflexivity. rewrite IH. cbn [fst snd].
    destruct (mapM f l); cbn [bind map fst snd]; try reflexivity. rewrite <- !app_assoc. reflexivity.
Qed.

Lemma checked_keys : forall (n : Z) (f : nat * Z -> res (dkey * dkey)) l,
  (forall ix, In ix l -> (0 <= snd ix < n)%Z -> exists k, f ix = Ok k) ->
  (if existsb (fun q => (q <? 0)%Z || (n <=? q)%Z) (map snd l)
   then mapM (fun ix => _ <- check (negb (snd ix <? 0)%Z) INVALID_ARGUMENT ;; _ <- check (negb (n <=? snd ix)%Z) INVALID_ARGUMENT ;; f ix) l
        = Err INVALID_ARGUMENT
   else mapM (fun ix => _ <- check (negb (snd ix <? 0)%Z) INVALID_ARGUMENT ;; _ <- check (negb (n <=? snd ix)%Z) INVALID_ARGUMENT ;; f ix) l
        = mapM f l /\ exists ks, mapM f l = Ok ks).
Proof.
  intros n f l. induction l as [|[i q] l IH]; intros Hf; cbn [map existsb mapM snd]; [split; [reflexivity|eauto]|].
  specialize (IH (fun ix H => Hf ix (or_intror H))). specialize (Hf (i, q) (or_introl eq_refl)). cbn [snd] in Hf.
  destruct (Z.ltb_spec q 0); cbn [orb negb check bind]; [reflexivity|].
  destruct (Z.leb_spec n q); cbn [orb negb check bind]; [reflexivity|].
  destruct Hf as [k Hk]; [lia|]. rewrite Hk. cbn [bind].
  destruct (existsb _ (map snd l)); [rewrite IH; reflexivity|]. destruct IH as [-> [ks Hks]]. split; [reflexivity|]. rewrite Hks. cbn [bind]. eauto.
Qed.
Lemma combine_snd : forall A (l : list A) s, map snd (combine (seq s (length l)) l) = l.
Proof. induction l as [|a l IH]; intros s; [reflexivity|]. cbn [length seq combine map snd]. f_equal. apply IH. Qed.

(** For the same seeds, the generator and a client for the same number of elements return the same
    two plain requests, or both INVALID_ARGUMENT. *)
Theorem C58_requests : forall aes F clog n context otp, (0 < n < 2147483648)%Z -> clog_ok clog n ->
  exists g c, generator_create F clog n context otp = Ok g /\ dense_client_create F clog (CfgDense n) true = Ok c /\
  forall indices seeds,
    match generator_plain_requests aes g indices seeds with
    | Ok (r1, r2) => Forall (fun i => 0 <= i < n)%Z indices /\
        dense_create_plain_requests aes c indices seeds otp
        = Ok (r1, {| hq_plain := match indices with [] => None | _ => Some r2 end; hq_seed := otp |}, CsDense otp)
    | e => e = Err INVALID_ARGUMENT /\ Exists (fun i => i < 0 \/ n <= i)%Z indices /\
        dense_create_plain_requests aes c indices seeds otp = Err INVALID_ARGUMENT
    end.
Proof.
  intros aes F clog n context otp Hn HL. destruct (dense_client_ok F clog n Hn HL) as (d & Hd & Hc).
  exists {| rg_dpf := d; rg_seed := otp; rg_context := context; rg_size := n |}. eexists.
  split; [|split; [exact Hc|]].
  { unfold generator_create. replace (negb (n <=? 0)%Z) with true by lia. cbn [check bind]. rewrite Hd. reflexivity. }
  intros indices seeds. unfold generator_plain_requests, dense_create_plain_requests. cbn [rg_dpf rg_size dc_dpf dc_size].
  rewrite range_check.
  set (step := fun (acc : list dkey * list dkey) (ix : nat * Z) => '(k1, k2) <-
         (_ <- check (negb (snd ix <? 0)%Z) INVALID_ARGUMENT ;; _ <- check (negb (n <=? snd ix)%Z) INVALID_ARGUMENT ;;
          dense_keys aes d (snd ix) (seeds (fst ix))) ;; Ok (fst acc ++ [k1], snd acc ++ [k2])).
  rewrite (foldM_ext_in _ _ _ step).
  2:{ intros acc ix _. unfold step, dense_keys. destruct (negb (snd ix <? 0)%Z); cbn [check bind]; [|reflexivity].
      destruct (negb (n <=? snd ix)%Z); reflexivity. }
  unfold step. rewrite combine_keys. cbn [fst snd app].
  pose proof (checked_keys n (fun iq => dense_keys aes d (snd iq) (seeds (fst iq))) (combine (seq 0 (length indices)) indices)) as HK.
  rewrite combine_snd in HK.
  assert (Hf : forall ix : nat * Z, In ix (combine (seq 0 (length indices)) indices) -> (0 <= snd ix < n)%Z ->
                 exists k, dense_keys aes d (snd ix) (seeds (fst ix)) = Ok k).
  { intros ix _ Hix. destruct (dense_keys_ok aes F clog n ltac:(lia) ltac:(lia) HL d Hd (snd ix) (seeds (fst ix)) Hix) as (k0 & k1 & E & _).
    exists (k0, k1). exact E. }
  specialize (HK Hf). destruct (existsb _ indices) eqn:EX.
  - rewrite HK. cbn [bind]. split; [reflexivity|]. split; [|reflexivity].
    apply existsb_exists in EX. destruct EX as (q & Hq & Hr). apply Exists_exists. exists q. split; [exact Hq|]. lia.
  - destruct HK as [-> [ks Hks]]. rewrite Hks. cbn [bind]. split.
    + apply Forall_forall. intros q Hq. pose proof (proj2 (existsb_exists (fun q => (q <? 0)%Z || (n <=? q)%Z) indices)) as HN.
      rewrite EX in HN. destruct (Z.ltb_spec q 0), (Z.leb_spec n q); try lia;
        (discriminate HN; exists q; split; [exact Hq|]; lia).
    + apply mapM_length in Hks. rewrite combine_length, seq_length, Nat.min_id in Hks.
      destruct indices as [|q qs], ks as [|k ks]; try discriminate Hks; reflexivity.
Qed.
Print Assumptions C58_requests.

(** Create rejects exactly the sizes that are not positive. *)
Theorem C58_create : forall F clog n context otp, (n < 2147483648)%Z -> (0 < n -> clog_ok clog n)%Z ->
  (exists g, generator_create F clog n context otp = Ok g) /\ (0 < n)%Z \/
  generator_create F clog n context otp = Err INVALID_ARGUMENT /\ (n <= 0)%Z.
Proof.
  intros F clog n context otp Hn HL. destruct (Z.leb_spec n 0) as [H|H].
  - right. split; [|exact H]. unfold generator_create. replace (negb (n <=? 0)%Z) with false by lia. reflexivity.
  - left. split; [|exact H]. destruct (C58_requests (fun _ _ => 0) F clog n context otp ltac:(lia) (HL H)) as (g & _ & E & _). eauto.
Qed.
Print Assumptions C58_create.

(** The encrypted Leader request is the one of the client, for every serialization and encryption. *)
Theorem C58_leader : forall aes F clog n context otp ser enc, (0 < n < 2147483648)%Z -> clog_ok clog n ->
  exists g c, generator_create F clog n context otp = Ok g /\ dense_client_create F clog (CfgDense n) true = Ok c /\
  forall indices seeds, indices <> [] ->
    create_request ser enc context (dense_create_plain_requests aes c indices seeds otp)
    = ('(leader, encrypted) <- generator_leader_request aes ser enc g indices seeds ;;
       Ok (RqLeader (Some leader) (Some encrypted), CsDense otp)).
Proof.
  intros aes F clog n context otp ser enc Hn HL.
  destruct (C58_requests aes F clog n context otp Hn HL) as (g & c & Hg & Hc & HR). exists g, c. split; [exact Hg|]. split; [exact Hc|].
  intros indices seeds Hne. specialize (HR indices seeds). unfold generator_leader_request, create_request, to_leader_request.
  assert (Hs : rg_seed g = otp /\ rg_context g = context).
  { unfold generator_create in Hg. bind_inv Hg. bind_inv Hg. injection Hg as <-. split; reflexivity. }
  destruct Hs as [-> ->].
  destruct (generator_plain_requests aes g indices seeds) as [[r1 r2]| | |]; cbn [bind].
  - destruct HR as [_ ->]. cbn [bind]. destruct indices as [|i indices]; [congruence|].
    destruct (enc _ context); reflexivity.
  - destruct HR as (HE & _ & ->). injection HE as ->. reflexivity.
  - destruct HR as (HE & _). discriminate HE.
  - destruct HR as (HE & _). discriminate HE.
Qed.
Print Assumptions C58_leader.

Example C58_nonvacuous : clog_ok xp_clog 300 /\ match generator_create ex_F xp_clog 300 [1] [2] with
  | Ok g => match generator_plain_requests ex_aes g [299; 0; 131]%Z xp_seeds with
            | Ok (r1, r2) => length (pq_keys r1) = 3%nat /\ length (pq_keys r2) = 3%nat
            | _ => False end /\
      generator_plain_requests ex_aes g [299; 300]%Z xp_seeds = Err INVALID_ARGUMENT
  | _ => False
  end.
Proof. split; [apply xp_clog_ok; lia|]. vm_compute. repeat split. Qed.

(** ** C59: BasicRng returns every value for exactly one outcome of RAND_bytes *)

Theorem C59_bijection : forall n,
  (forall b, length b = n -> is_bytes b -> exists x, basic_rand n (Some b) = Ok x /\ x < 256 ^ N.of_nat n) /\
  (forall x, x < 256 ^ N.of_nat n -> exists b, (length b = n /\ is_bytes b /\ basic_rand n (Some b) = Ok x) /\
     forall b', length b' = n -> is_bytes b' -> basic_rand n (Some b') = Ok x -> b' = b) /\
  basic_rand n None = Err INTERNAL.
Proof.
  intros n. split; [|split; [|reflexivity]].
  - intros b Hl _. exists (le_decode b). split; [cbn [basic_rand]; rewrite firstn_all2 by lia; reflexivity|].
    rewrite <- Hl. apply le_decode_bound.
  - intros x Hx. exists (le_encode n x). split; [split; [apply le_encode_length|split]|].
    + clear. revert x. induction n as [|n IH]; intros x; [constructor|]. cbn [le_encode]. constructor; [apply N.mod_lt; discriminate|apply IH].
    + cbn [basic_rand]. rewrite firstn_all2 by (rewrite le_encode_length; lia). rewrite le_decode_encode, N.mod_small by exact Hx. reflexivity.
    + intros b' Hl HB HE. cbn [basic_rand] in HE. rewrite firstn_all2 in HE by lia. injection HE as HE. rewrite <- HE, <- Hl. symmetry.
      apply le_encode_decode. exact HB.
Qed.
Print Assumptions C59_bijection.
Example C59_nonvacuous : basic_rand 8 (Some [1; 2; 0; 0; 0; 0; 0; 255]) = Ok 18374686479671624193 /\
  is_bytes [1; 2; 0; 0; 0; 0; 0; 255].
Proof. split; [vm_compute; reflexivity|]. repeat constructor. Qed.

(** ** C60: FarmHashFunction returns bucket numbers *)

Definition two64 (h : N * N) : Prop := fst h < 2 ^ 64 /\ snd h < 2 ^ 64.
Theorem C60_range : forall h128 h128s seed input n, (0 < n < 2147483648)%Z -> two64 (h128s input (h128 seed)) ->
  exists r, farm_hash_function h128 h128s seed input n = Ok r /\ (0 <= r < n)%Z /\
    r = ((Z.of_N (snd (h128s input (h128 seed))) * 2 ^ 64 + Z.of_N (fst (h128s input (h128 seed)))) mod n)%Z.
Proof.
  intros h128 h128s seed input n Hn [H1 H2]. unfold farm_hash_function. destruct (h128s input (h128 seed)) as [lo hi]. cbn [fst snd] in *.
  unfold mod_int. rewrite Z.mod_small by (change (Z.of_N P128) with (2 ^ 128)%Z; lia).
  destruct (N.eqb_spec (Z.to_N n) 0) as [E|_]; [lia|]. cbn [bind]. unfold mk128.
  rewrite (N.mod_small hi), (N.mod_small lo) by (change P64 with (2 ^ 64); assumption).
  assert (E : Z.of_N ((hi * P64 + lo) mod Z.to_N n) = ((Z.of_N hi * 2 ^ 64 + Z.of_N lo) mod n)%Z).
  { rewrite N2Z.inj_mod, Z2N.id, N2Z.inj_add, N2Z.inj_mul by lia. reflexivity. }
  pose proof (Z.mod_pos_bound (Z.of_N hi * 2 ^ 64 + Z.of_N lo) n ltac:(lia)) as HB.
  eexists. split; [reflexivity|]. rewrite E, to_int32_id by lia. split; [exact HB|reflexivity].
Qed.
Print Assumptions C60_range.
Example C60_nonvacuous : farm_hash_function (fun s => (N.of_nat (length s), 7)) (fun i h => (fst h + 5, snd h * 3)) [1; 2] [] 1000%Z = Ok 943%Z /\
  two64 (7, 21).
Proof. split; [vm_compute; reflexivity|split; reflexivity]. Qed.

(** ** C61: generators of test databases *)

(** The number written with the digits [ds], most significant first. *)
Definition number_of (ds : bytes) : N := fold_left (fun x c => 10 * x + (c - 48)) ds 0.

Lemma number_app : forall ds x, fold_left (fun x c => 10 * x + (c - 48)) ds x = x * 10 ^ N.of_nat (length ds) + number_of ds.
Proof.
  unfold number_of. induction ds as [|c ds IH]; intros x; cbn [fold_left length]; [rewrite N.pow_0_r; lia|].
  rewrite IH, (IH (10 * 0 + (c - 48))). rewrite Nat2N.inj_succ, N.pow_succ_r by lia. lia.
Qed.
Lemma decimal_number : forall fuel n rest, n < 10 ^ N.of_nat fuel ->
  exists ds, decimal fuel n rest = ds ++ rest /\ number_of ds = n /\ Forall (fun c => 48 <= c < 58) ds /\
    ((0 < fuel)%nat -> ds <> [] /\ (hd 0 ds = 48 -> ds = [48])).
Proof.
  induction fuel as [|fuel IH]; intros n rest Hn.
  - cbn in Hn. exists []. split; [reflexivity|]. split; [unfold number_of; cbn; lia|]. split; [constructor|lia].
  - cbn [decimal]. cbv zeta. rewrite Nat2N.inj_succ, N.pow_succ_r in Hn by lia.
    assert (Hd : n / 10 < 10 ^ N.of_nat fuel) by (apply N.div_lt_upper_bound; lia).
    pose proof (N.mod_lt n 10 ltac:(discriminate)) as Hm. pose proof (N.div_mod n 10 ltac:(discriminate)) as Hdm.
    destruct (N.eqb_spec (n / 10) 0) as [H0|H0].
    + exists [48 + n mod 10]. split; [reflexivity|]. split; [unfold number_of; cbn [fold_left]; clear - Hm Hdm H0; rewrite H0 in Hdm; lia|].
      split; [constructor; [lia|constructor]|]. intros _. split; [discriminate|]. cbn [hd]. intros ->. reflexivity.
    + destruct (IH (n / 10) ((48 + n mod 10) :: rest) Hd) as (ds & E & HN & HF & HZ). exists (ds ++ [48 + n mod 10]).
      split; [rewrite E, <- app_assoc; reflexivity|]. split.
      { unfold number_of. rewrite fold_left_app. cbn [fold_left]. fold (number_of ds). rewrite HN. clear - Hm Hdm. lia. }
      split; [apply Forall_app; split; [exact HF|constructor; [lia|constructor]]|]. intros _. split; [destruct ds; discriminate|].
      intros HH. exfalso. destruct fuel as [|fuel]; [cbn in Hd; lia|]. destruct (HZ ltac:(lia)) as [Hne HZ']. destruct ds as [|c ds]; [congruence|].
      cbn [hd app] in HH, HZ'. specialize (HZ' HH). rewrite HZ' in HN. unfold number_of in HN. cbn in HN. lia.
Qed.

(** Any number of elements: the strings are the prefix followed by the decimal numbers 0, 1, 2, ...
    without leading zeros; they are distinct. *)
Theorem C61_counting : forall n prefix, (n < 2147483648)%Z ->
  if (n <? 0)%Z then counting_strings n prefix = Err INVALID_ARGUMENT
  else exists l, counting_strings n prefix = Ok l /\ Z.of_nat (length l) = n /\ NoDup l /\
    forall i, (i < length l)%nat -> exists ds, nth i l [] = prefix ++ ds /\ number_of ds = N.of_nat i /\
      Forall (fun c => 48 <= c < 58) ds /\ ds <> [] /\ (hd 0 ds = 48 -> ds = [48]).
Proof.
  intros n prefix Hn. unfold counting_strings. destruct (Z.ltb_spec n 0) as [H|H]; [reflexivity|]. cbn [negb check bind].
  set (f := fun i => prefix ++ decimal 10 (N.of_nat i) []).
  assert (Hf : forall i, (i < Z.to_nat n)%nat -> exists ds, f i = prefix ++ ds /\ number_of ds = N.of_nat i /\
      Forall (fun c => 48 <= c < 58) ds /\ ds <> [] /\ (hd 0 ds = 48 -> ds = [48])).
  { intros i Hi. destruct (decimal_number 10 (N.of_nat i) []) as (ds & E & HN & HF & HZ).
    - change (10 ^ N.of_nat 10) with 10000000000. lia.
    - exists ds. unfold f. rewrite E, app_nil_r. destruct (HZ ltac:(lia)). auto. }
  exists (map f (seq 0 (Z.to_nat n))). split; [reflexivity|]. rewrite map_length, seq_length. split; [lia|]. split.
  - assert (HI : forall i j, (i < Z.to_nat n)%nat -> (j < Z.to_nat n)%nat -> f i = f j -> i = j).
    { intros i j Hi Hj HE. destruct (Hf i Hi) as (d1 & E1 & N1 & _). destruct (Hf j Hj) as (d2 & E2 & N2 & _).
      rewrite E1, E2 in HE. apply app_inv_head in HE. subst d2. lia. }
    apply NoDup_nth with (d := f 0%nat). rewrite map_length, seq_length. intros i j Hi Hj HE. rewrite !map_nth, !seq_nth in HE by assumption.
    apply HI; assumption.
  - intros i Hi. destruct (Hf i Hi) as (ds & E & HR). exists ds. split; [|exact HR].
    rewrite (nth_indep _ [] (f 0%nat)) by (rewrite map_length, seq_length; exact Hi). rewrite map_nth, seq_nth by exact Hi. exact E.
Qed.
Print Assumptions C61_counting.

(** Random strings: exactly the non-negative sizes are accepted, and the strings have these sizes and
    consist of the random bytes. *)
Lemma random_sizes : forall (rnd : nat -> bytes) sizes s,
  (forall k z, nth_error sizes k = Some z -> (z <= Z.of_nat (length (rnd (s + k)%nat)))%Z) ->
  let f := fun is : nat * Z => _ <- check (negb (snd is <? 0)%Z) INVALID_ARGUMENT ;; Ok (firstn (Z.to_nat (snd is)) (rnd (fst is))) in
  if forallb (fun z => (0 <=? z)%Z) sizes
  then exists l, mapM f (combine (seq s (length sizes)) sizes) = Ok l /\ map (fun v => Z.of_nat (length v)) l = sizes
  else mapM f (combine (seq s (length sizes)) sizes) = Err INVALID_ARGUMENT.
Proof.
  intros rnd sizes. induction sizes as [|z sizes IH]; intros s Hr f; [exists []; split; reflexivity|].
  cbn [length seq combine mapM forallb]. unfold f at 1 3. cbn [fst snd]. fold f.
  destruct (Z.leb_spec 0 z) as [H|H]; destruct (Z.ltb_spec z 0) as [H'|H']; try lia; cbn [andb negb check bind]; [|reflexivity].
  specialize (IH (S s)). assert (Hr' : forall k z, nth_error sizes k = Some z -> (z <= Z.of_nat (length (rnd (S s + k)%nat)))%Z).
  { intros k z' Hk. replace (S s + k)%nat with (s + S k)%nat by lia. apply Hr. exact Hk. }
  specialize (IH Hr'). cbv zeta in IH. fold f in IH. destruct (forallb _ sizes).
  - destruct IH as (l & E & HL). rewrite E. cbn [bind]. eexists. split; [reflexivity|]. cbn [map]. f_equal; [|exact HL].
    specialize (Hr 0%nat z eq_refl). rewrite Nat.add_0_r in Hr. rewrite firstn_length, Nat.min_l; lia.
  - rewrite IH. reflexivity.
Qed.
Theorem C61_random : forall (rnd : nat -> bytes) sizes, (forall i z, nth_error sizes i = Some z -> (z <= Z.of_nat (length (rnd i)))%Z) ->
  if forallb (fun z => (0 <=? z)%Z) sizes
  then exists l, random_strings rnd sizes = Ok l /\ map (fun v => Z.of_nat (length v)) l = sizes
  else random_strings rnd sizes = Err INVALID_ARGUMENT.
Proof. intros rnd sizes Hr. exact (random_sizes rnd sizes 0 Hr). Qed.
Print Assumptions C61_random.

(** Equal sizes. *)
Theorem C61_equal : forall rnd n size, (forall i, size <= Z.of_nat (length (rnd i)))%Z ->
  if (n <? 0)%Z || (size <? 0)%Z then random_strings_equal_size rnd n size = Err INVALID_ARGUMENT
  else exists l, random_strings_equal_size rnd n size = Ok l /\ Z.of_nat (length l) = n /\
    Forall (fun v => Z.of_nat (length v) = size) l.
Proof.
  intros rnd n size Hr. unfold random_strings_equal_size. destruct (Z.ltb_spec n 0); [reflexivity|].
  destruct (Z.ltb_spec size 0); cbn [orb negb check bind]; [reflexivity|].
  assert (HR : forall i z, nth_error (repeat size (Z.to_nat n)) i = Some z -> (z <= Z.of_nat (length (rnd i)))%Z).
  { intros i z Hz. apply nth_error_In, repeat_spec in Hz. subst z. apply Hr. }
  pose proof (C61_random rnd _ HR) as HX. replace (forallb _ _) with true in HX.
  2:{ symmetry. apply forallb_forall. intros z Hz. apply repeat_spec in Hz. lia. }
  destruct HX as (l & E & HL). exists l. split; [exact E|]. split.
  - apply (f_equal (@length Z)) in HL. rewrite map_length, repeat_length in HL. unfold bytes in *. lia.
  - apply Forall_forall. intros v Hv. apply (in_map (fun v => Z.of_nat (length v))) in Hv. rewrite HL in Hv. apply repeat_spec in Hv. exact Hv.
Qed.
Print Assumptions C61_equal.

Lemma forallb_map : forall A B (f : A -> B) p l, forallb p (map f l) = forallb (fun x => p (f x)) l.
Proof. intros A B f p l. induction l as [|a l IH]; [reflexivity|]. cbn [map forallb]. rewrite IH. reflexivity. Qed.
(** Variable sizes.  absl::Uniform returns values in [-diff, diff), or 0 if diff is 0.  The sizes are
    those drawn.  Negative sizes, which can be drawn if the difference exceeds the average, are rejected. *)
Definition uniform_draws (draw : nat -> Z) (diff : Z) : Prop := forall i, (- diff <= draw i < Z.max 1 diff)%Z.
Theorem C61_variable : forall rnd draw n avg diff, uniform_draws draw diff -> (avg + diff <= 2147483648)%Z -> (avg < 2147483648)%Z ->
  (forall i, avg + draw i <= Z.of_nat (length (rnd i)))%Z ->
  if (n <? 0)%Z || (avg <? 0)%Z || (diff <? 0)%Z then random_strings_variable_size rnd draw n avg diff = Err INVALID_ARGUMENT
  else if forallb (fun i => 0 <=? avg + draw i)%Z (seq 0 (Z.to_nat n))
  then exists l, random_strings_variable_size rnd draw n avg diff = Ok l /\ Z.of_nat (length l) = n /\
    Forall (fun v => avg - diff <= Z.of_nat (length v) <= avg + diff)%Z l
  else random_strings_variable_size rnd draw n avg diff = Err INVALID_ARGUMENT.
Proof.
  intros rnd draw n avg diff HU Hs Ha Hr. unfold random_strings_variable_size. destruct (Z.ltb_spec n 0); [reflexivity|].
  destruct (Z.ltb_spec avg 0); cbn [orb negb check bind]; [reflexivity|].
  destruct (Z.ltb_spec diff 0); cbn [orb negb check bind]; [reflexivity|].
  rewrite (mapM_map_ok _ _ _ (fun i => (avg + draw i)%Z)).
  2:{ intros i _. pose proof (HU i). cbv zeta. replace (avg + draw i <? 2147483648)%Z with true by lia. reflexivity. }
  cbn [bind]. set (sizes := map (fun i => (avg + draw i)%Z) (seq 0 (Z.to_nat n))).
  assert (HR : forall i z, nth_error sizes i = Some z -> (z <= Z.of_nat (length (rnd i)))%Z).
  { intros i z Hz. assert (Hi : (i < Z.to_nat n)%nat).
    { pose proof (proj1 (nth_error_Some sizes i)) as HL. rewrite Hz in HL. specialize (HL ltac:(discriminate)). unfold sizes in HL.
      rewrite map_length, seq_length in HL. exact HL. }
    unfold sizes in Hz. rewrite nth_error_map, nth_error_seq in Hz by exact Hi. injection Hz as <-. apply Hr. }
  pose proof (C61_random rnd _ HR) as HX. unfold sizes in HX at 1. rewrite forallb_map in HX.
  destruct (forallb _ _).
  - destruct HX as (l & E & HL). exists l. split; [exact E|]. split.
    + apply (f_equal (@length Z)) in HL. unfold sizes in HL. rewrite !map_length, seq_length in HL. unfold bytes in *. lia.
    + apply Forall_forall. intros v Hv. apply (in_map (fun v => Z.of_nat (length v))) in Hv. rewrite HL in Hv.
      apply in_map_iff in Hv. destruct Hv as (i & <- & _). pose proof (HU i). lia.
  - exact HX.
Qed.
Print Assumptions C61_variable.
Example C61_nonvacuous :
  counting_strings 11 [97] = Ok ([97; 48] :: map (fun d => [97; d]) [49; 50; 51; 52; 53; 54; 55; 56; 57] ++ [[97; 49; 48]]) /\
  uniform_draws (fun i => Z.of_nat (Nat.modulo i 4) - 2)%Z 2 /\
  random_strings_variable_size (fun i => repeat (N.of_nat i) 9) (fun i => Z.of_nat (Nat.modulo i 4) - 2)%Z 4 2 2
  = Ok [[]; [1]; [2; 2]; [3; 3; 3]].
Proof.
  split; [vm_compute; reflexivity|]. split; [|vm_compute; reflexivity].
  intros i. pose proof (Nat.mod_upper_bound i 4 ltac:(discriminate)). change (Z.max 1 2) with 2%Z. lia.
Qed.
