(** Proofs about the sparse PIR clients and servers. *)
From Coq Require Import List NArith ZArith Lia Bool Permutation ZifyBool ZifyNat ZifyN.
From Verif Require Import Base ListUtil ValueTypesModel DpfModel DpfSpec PirDbModel PirSpec PirIpProofs PirBuildProofs PirModel PirProtoSpec PirProtoProofs
  PirDenseProofs PropertiesPirProto HashModel HashSpec HashProofs SparseModel SparseSpec SparseDbProofs.
Import ListNotations.
Open Scope N_scope.
Ltac Zify.zify_post_hook ::= Z.div_mod_to_equations.

(** * Lists of pairs *)

Definition pair_up (l : list (bytes * bytes)) : list bytes := flat_map (fun kv : bytes * bytes => [fst kv; snd kv]) l.
Lemma pair_up_length : forall l, length (pair_up l) = (2 * length l)%nat.
Proof. induction l as [|[k v] l IH]; [reflexivity|]. unfold pair_up in *. cbn [flat_map app length fst snd]. rewrite IH. lia. Qed.
Lemma pair_up_even : forall l i kv, nth_error l i = Some kv -> nth_error (pair_up l) (2 * i) = Some (fst kv).
Proof.
  induction l as [|x l IH]; intros [|i] kv H; cbn [nth_error] in H; try discriminate.
  - injection H as ->. reflexivity.
  - replace (2 * S i)%nat with (S (S (2 * i))) by lia. cbn [pair_up flat_map app nth_error]. apply IH, H.
Qed.
Lemma pair_up_odd : forall l i kv, nth_error l i = Some kv -> nth_error (pair_up l) (2 * i + 1) = Some (snd kv).
Proof.
  induction l as [|x l IH]; intros [|i] kv H; cbn [nth_error] in H; try discriminate.
  - injection H as ->. reflexivity.
  - replace (2 * S i + 1)%nat with (S (S (2 * i + 1))) by lia. cbn [pair_up flat_map app nth_error]. apply IH, H.
Qed.
Lemma xor_pairs : forall k0 k1 v0 v1, length k0 = length k1 -> length v0 = length v1 -> length k0 = length v0 ->
  xor_lists (pair_up (combine k0 v0)) (pair_up (combine k1 v1)) = pair_up (combine (xor_lists k0 k1) (xor_lists v0 v1)).
Proof.
  induction k0 as [|a k0 IH]; intros [|b k1] [|c v0] [|d v1] H1 H2 H3; cbn [length] in *; try discriminate; [reflexivity|].
  cbn [combine pair_up flat_map app fst snd]. rewrite !xor_lists_cons. cbn [combine flat_map app fst snd]. unfold pair_up in IH. rewrite IH by lia. reflexivity.
Qed.
Lemma pairs_shape : forall k0 k1 v0 v1, same_shape k0 k1 -> same_shape v0 v1 -> length k0 = length v0 ->
  same_shape (pair_up (combine k0 v0)) (pair_up (combine k1 v1)).
Proof.
  unfold same_shape. induction k0 as [|a k0 IH]; intros [|b k1] [|c v0] [|d v1] H1 H2 H3; cbn [map length] in *; try discriminate; [reflexivity|].
  inversion H1. inversion H2. cbn [combine pair_up flat_map app fst snd map]. unfold pair_up in IH. rewrite (IH k1 v0 v1) by (assumption || lia). congruence.
Qed.
Lemma combine_map_map : forall A B C (f : A -> B) (g : A -> C) l, combine (map f l) (map g l) = map (fun x => (f x, g x)) l.
Proof. intros. induction l as [|x l IH]; [reflexivity|]. cbn [map combine]. rewrite IH. reflexivity. Qed.
Lemma same_shape_length : forall a b, same_shape a b -> length a = length b.
Proof. intros a b H. unfold same_shape in H. apply (f_equal (@length nat)) in H. rewrite !map_length in H. exact H. Qed.

Lemma nth_error_grid : forall A B (h : A -> nat -> B) k qs i j q, nth_error qs i = Some q -> (j < k)%nat ->
  nth_error (concat (map (fun q => map (h q) (seq 0 k)) qs)) (k * i + j) = Some (h q j).
Proof.
  intros A B h k. induction qs as [|x qs IH]; intros [|i] j q H Hj; cbn [nth_error] in H; try discriminate; cbn [map concat].
  - injection H as ->. rewrite nth_error_app1 by (rewrite map_length, seq_length; lia).
    rewrite nth_error_map, nth_error_seq by lia. cbn [option_map]. f_equal. f_equal. lia.
  - rewrite nth_error_app2 by (rewrite map_length, seq_length; lia). rewrite map_length, seq_length.
    replace (k * S i + j - k)%nat with (k * i + j)%nat by lia. apply IH; assumption.
Qed.
Lemma grid_length : forall A B (h : A -> nat -> B) k qs, length (concat (map (fun q => map (h q) (seq 0 k)) qs)) = (length qs * k)%nat.
Proof.
  intros A B h k. induction qs as [|x qs IH]; [reflexivity|]. cbn [map concat length]. rewrite app_length, map_length, seq_length, IH. lia.
Qed.

(** * Requests *)

Section Requests.
Variables (aes : N -> N -> N) (F : fops) (clog : Z -> Z) (records : list bytes).
Let n := Z.of_nat (length records).
Hypothesis HR : records_ok records.
Hypothesis Hlen : (n < 2147483648)%Z.
Hypothesis HL : clog_ok clog n.
Hypothesis H60 : (clog n < 60)%Z.

Lemma dense_part : forall indices seeds pad, indices <> [] -> Forall (fun q => 0 <= q < n)%Z indices ->
  exists d keys E0 E1, create_incremental F (dense_params clog n) = Ok d /\
    dense_client_create F clog (CfgDense n) true = Ok {| dc_dpf := d; dc_size := n |} /\
    dense_create_plain_requests aes {| dc_dpf := d; dc_size := n |} indices seeds pad
      = Ok ({| pq_keys := map fst keys; pq_fingerprint := 0 |},
            {| hq_plain := Some {| pq_keys := map snd keys; pq_fingerprint := 0 |}; hq_seed := pad |}, CsDense pad) /\
    keys <> [] /\
    mapM (dense_expand aes d) (map fst keys) = Ok E0 /\ mapM (dense_expand aes d) (map snd keys) = Ok E1 /\
    Forall3 (differ clog records) indices E0 E1.
Proof using HR Hlen HL H60.
  intros indices seeds pad Hne HQ. pose proof (records_pos records HR) as Hpos. fold n in Hpos.
  destruct (dense_create F clog n Hpos ltac:(lia) HL) as [d Hd].
  destruct (queries_expand aes F clog records HR Hlen HL d Hd indices seeds H60 HQ) as (keys & E0 & E1 & K1 & K2 & K3 & K4 & K5).
  assert (Hk : keys <> []) by (destruct keys, indices; [congruence|discriminate|discriminate|discriminate]).
  exists d, keys, E0, E1. split; [exact Hd|]. split; [|split; [|auto]].
  - unfold dense_client_create. destruct (Z.ltb_spec 0 n); [|lia]. cbn [check bind]. rewrite Hd. cbn [bind]. rewrite to_int32_id by lia. reflexivity.
  - unfold dense_create_plain_requests. rewrite range_check. cbn [dc_dpf dc_size].
    replace (existsb _ indices) with false.
    2:{ symmetry. apply not_true_is_false. intros HE. apply existsb_exists in HE. destruct HE as (q & Hq & Hr).
        pose proof (proj1 (Forall_forall _ _) HQ q Hq). cbv beta in *. lia. }
    cbn [bind]. rewrite K1. cbn [bind]. destruct keys; [congruence|]. reflexivity.
Qed.
End Requests.

Lemma fingerprint_total : forall sha seed, (forall x, length (sha x) = 32%nat) ->
  exists fp, fingerprint sha seed = Ok fp /\ (0 <= fp < 2147483647)%Z.
Proof.
  intros sha seed Hs. unfold fingerprint. rewrite sha256_value by (auto; lia). eexists. split; [reflexivity|]. apply Z.mod_pos_bound. lia.
Qed.
Lemma selections_ok : forall aes d fp keys E, keys <> [] -> mapM (dense_expand aes d) keys = Ok E ->
  sparse_selections aes d fp (RqPlain {| pq_keys := keys; pq_fingerprint := to_uint32 fp |}) = Ok E.
Proof.
  intros aes d fp keys E Hk HE. unfold sparse_selections. cbn [pq_keys pq_fingerprint].
  destruct (Nat.eqb_spec (length keys) 0) as [C|]; [destruct keys; [congruence|discriminate]|]. cbn [negb check bind].
  rewrite N.eqb_refl. cbn [negb]. rewrite andb_false_r. cbn [negb check bind]. exact HE.
Qed.

(** * Matching a key *)

Lemma stripped_zeros : forall z, stripped (repeat 0 z) = [].
Proof. induction z as [|z IH]; [reflexivity|]. cbn [repeat stripped]. rewrite IH. reflexivity. Qed.
Lemma stripped_app_zeros : forall a z, stripped (a ++ repeat 0 z) = stripped a.
Proof. induction a as [|x a IH]; intros z; [apply stripped_zeros|]. cbn [app stripped]. rewrite IH. reflexivity. Qed.
Lemma stripped_padded : forall a, exists z, a = stripped a ++ repeat 0 z.
Proof.
  induction a as [|x a [z IH]]; [exists 0%nat; reflexivity|]. cbn [stripped]. destruct (stripped a) as [|y s] eqn:E.
  - cbn [app] in IH. destruct (N.eqb_spec x 0) as [->|Hx].
    + exists (S z). cbn [repeat app]. congruence.
    + exists z. cbn [app]. congruence.
  - exists z. cbn [app]. rewrite IH at 1. reflexivity.
Qed.
Lemma zero_padded_strip : forall size a, (length a <= size)%nat -> zero_padded size a = zero_padded size (stripped a).
Proof.
  intros size a H. destruct (stripped_padded a) as [z E]. remember (stripped a) as s eqn:Es. clear Es. subst a. unfold zero_padded.
  rewrite app_length, repeat_length in *. rewrite <- app_assoc, <- repeat_app. do 2 f_equal. lia.
Qed.
Lemma zero_padded_stripped : forall size a b, (length a <= size)%nat -> (length b <= size)%nat ->
  zero_padded size a = zero_padded size b <-> stripped a = stripped b.
Proof.
  intros size a b Ha Hb. split; intros H.
  - unfold zero_padded in H. apply (f_equal stripped) in H. rewrite !stripped_app_zeros in H. exact H.
  - rewrite (zero_padded_strip size a), (zero_padded_strip size b), H by assumption. reflexivity.
Qed.
Lemma is_prefix_padded_spec : forall input prefix,
  is_prefix_padded input prefix = true <-> input = firstn (length input) (prefix ++ repeat 0 (length input)).
Proof.
  induction input as [|x input IH]; intros [|y prefix]; cbn [is_prefix_padded length firstn app repeat]; try tauto.
  - rewrite andb_true_iff, IH, N.eqb_eq. cbn [app]. split; [intros [-> H]; f_equal; exact H|intros H; injection H as H1 H2; split; assumption].
  - rewrite andb_true_iff, IH, N.eqb_eq.
    assert (HX : firstn (length input) (prefix ++ repeat 0 (length input)) = firstn (length input) (prefix ++ 0 :: repeat 0 (length input))).
    { clear. change (0 :: repeat 0 (length input)) with (repeat 0 (S (length input))). generalize (length input) as m. intros m.
      rewrite !firstn_app. f_equal. clear. generalize (m - length prefix)%nat (Nat.le_sub_l m (length prefix)). intros j Hj.
      revert j Hj. induction m as [|m IH]; intros [|j] Hj; cbn [repeat firstn]; try reflexivity; [lia|].
      f_equal. cbn [repeat] in IH. apply IH. lia. }
    rewrite HX. split; [intros [-> H]; f_equal; exact H|intros H; injection H as H1 H2; split; assumption].
Qed.
(** For a query not longer than the padded key. *)
Lemma prefix_short : forall size key q, (length key <= size)%nat -> (length q <= size)%nat ->
  is_prefix_padded (zero_padded size key) q = true <-> stripped key = stripped q.
Proof.
  intros size key q Hk Hq. rewrite is_prefix_padded_spec.
  assert (HL : length (zero_padded size key) = size) by (unfold zero_padded; rewrite app_length, repeat_length; lia). rewrite HL.
  replace (firstn size (q ++ repeat 0 size)) with (zero_padded size q); [apply zero_padded_stripped; assumption|].
  unfold zero_padded. rewrite firstn_app, firstn_all2 by assumption. f_equal.
  clear. generalize (Nat.le_sub_l size (length q)). generalize (size - length q)%nat. intros j. revert size.
  induction j as [|j IH]; intros [|m] Hj; cbn [repeat firstn]; try reflexivity; [lia|]. f_equal. apply IH. lia.
Qed.

Lemma dense_response_length : forall aes resp seed raw, dense_handle_response aes resp (CsDense seed) = Ok raw ->
  exists l, resp = Some l /\ length raw = length l.
Proof.
  intros aes [l|] seed raw H; [|discriminate]. exists l. split; [reflexivity|]. unfold dense_handle_response in H. cbn [bind] in H.
  bind_inv H. bind_inv H. destruct (Nat.eqb_spec (length seed) 16) as [E|E].
  - rewrite (mask_created aes seed l E) in H. inv H. apply same_shape_length, xor_lists_shape. unfold same_shape. rewrite pads_shape. reflexivity.
  - rewrite prng_create_iff in H. destruct (Nat.eqb_spec (length seed) 16); [contradiction|discriminate].
Qed.

(** * Cuckoo hashing end to end *)

Section CuckooRound.
Variables (aes : N -> N -> N) (F : fops) (clog : Z -> Z) (sha : bytes -> bytes) (p : cuckoo_params) (K V : list bytes).
Let n := cp_buckets p.
Let seed := hf_seed (cp_hash p).
Let k := Z.to_nat (cp_functions p).
Hypothesis Hsha : forall x, length (sha x) = 32%nat.
Hypothesis HlenK : Z.of_nat (length K) = n.
Hypothesis HlenV : Z.of_nat (length V) = n.
Hypothesis HRK : records_ok K.
Hypothesis HRV : records_ok V.
Hypothesis Hn : (n < 2147483648)%Z.
Hypothesis HL : clog_ok clog n.
Hypothesis Hk : (0 < cp_functions p)%Z.
Hypothesis Hseed : seed <> [].
Hypothesis Hfam : hf_family (cp_hash p) = 1%Z.

Definition key_at (i : nat) : bytes := zero_padded (longest K) (nth i K []).
Definition value_at (i : nat) : bytes := zero_padded (longest V) (nth i V []).
Definition answer (q : bytes) : option bytes :=
  match find (fun j => is_prefix_padded (key_at (bucket sha seed n q j)) q) (seq 0 k) with
  | Some j => Some (value_at (bucket sha seed n q j))
  | None => None
  end.

Lemma n_pos : (0 < n < 2147483648)%Z.
Proof using HlenK HRK Hn. pose proof (records_pos K HRK) as H. rewrite HlenK in H. split; assumption. Qed.

Definition indices (queries : list bytes) : list Z :=
  concat (map (fun q => map (fun j => Z.of_nat (bucket sha seed n q j)) (seq 0 k)) queries).
Let fs := map (fun j => sha256_hash_function sha (seed ++ str_cat (N.of_nat j))) (seq 0 k).

Lemma indices_ok : forall queries, mapM (fun q => mapM (fun f : hash_function => f q n) fs) queries
  = Ok (map (fun q => map (fun j => Z.of_nat (bucket sha seed n q j)) (seq 0 k)) queries).
Proof using Hsha HlenK HRK Hn.
  intros queries. pose proof n_pos as Hpos. apply mapM_map_ok. intros q _. unfold fs.
  assert (HM : forall l, mapM (fun f : hash_function => f q n) (map (fun j => sha256_hash_function sha (seed ++ str_cat (N.of_nat j))) l)
               = Ok (map (fun j => Z.of_nat (bucket sha seed n q j)) l)).
  { induction l as [|j l IH]; [reflexivity|]. cbn [map mapM]. rewrite (proj1 (function_value sha seed q n j Hsha Hpos)). cbn [bind].
    rewrite IH. reflexivity. }
  apply HM.
Qed.
Lemma indices_range : forall queries, Forall (fun q => 0 <= q < n)%Z (indices queries).
Proof using Hsha HlenK HRK Hn.
  intros queries. apply Forall_forall. intros x Hx. unfold indices in Hx. apply in_concat in Hx. destruct Hx as (l & Hl & Hx).
  apply in_map_iff in Hl. destruct Hl as (q & <- & _). apply in_map_iff in Hx. destruct Hx as (j & <- & _).
  pose proof (function_value sha seed q n j Hsha n_pos) as [_ HB]. clear - HB. lia.
Qed.

Lemma client_ok : forall d, dense_client_create F clog (CfgDense n) true = Ok {| dc_dpf := d; dc_size := n |} ->
  forall fp, fingerprint sha seed = Ok fp ->
  cuckoo_client_create sha F clog (PpCuckoo p) true
  = Ok {| cc_dense := {| dc_dpf := d; dc_size := n |}; cc_functions := fs; cc_buckets := n; cc_fingerprint := fp |}.
Proof using HlenK HRK Hn Hk Hseed Hfam.
  intros d Hd fp Hfp. pose proof n_pos as Hpos. unfold cuckoo_client_create. cbn [check bind]. fold n.
  assert (negb (n <=? 0)%Z = true) as -> by (clear - Hpos; lia). assert (negb (cp_functions p <=? 0)%Z = true) as -> by (clear - Hk; lia).
  cbn [check bind]. unfold hash_family_from_config. fold seed. rewrite Hfam.
  replace (negb (Nat.eqb (length seed) 0)) with true by (destruct seed; [congruence|reflexivity]). cbn [Z.eqb Pos.eqb check bind].
  rewrite Hfp. cbn [bind]. unfold create_hash_functions. assert (negb (cp_functions p <? 0)%Z = true) as -> by (clear - Hk; lia).
  cbn [check bind]. rewrite Hd. cbn [bind]. rewrite to_int32_id by (clear - Hpos; lia). reflexivity.
Qed.
Lemma server_ok : forall db d, Z.of_nat (cd_bits db) = n -> create_incremental F (dense_params clog n) = Ok d ->
  forall fp, fingerprint sha seed = Ok fp ->
  cuckoo_create_plain sha F clog p (Some db) = Ok {| cs_params := p; cs_dpf := d; cs_db := db; cs_fingerprint := fp |}.
Proof using HlenK HRK Hn Hk Hfam.
  intros db d Hdb Hd fp Hfp. pose proof n_pos as Hpos. unfold cuckoo_create_plain. fold n.
  assert (negb (n <=? 0)%Z = true) as -> by (clear - Hpos; lia). assert (negb (cp_functions p <=? 0)%Z = true) as -> by (clear - Hk; lia).
  rewrite Hfam. cbn [Z.eqb negb check bind]. rewrite Hdb, Z.eqb_refl. cbn [check bind]. rewrite Hd. cbn [bind]. fold seed. rewrite Hfp. reflexivity.
Qed.

Lemma answers_ok : forall queries i q, nth_error queries i = Some q ->
  cuckoo_answer (pair_up (map (fun i => (key_at (Z.to_nat i), value_at (Z.to_nat i))) (indices queries))) k i q = Ok (answer q).
Proof using.
  intros queries i q Hq. unfold cuckoo_answer, answer.
  set (raw := pair_up (map (fun i => (key_at (Z.to_nat i), value_at (Z.to_nat i))) (indices queries))).
  assert (Hnth : forall j, (j < k)%nat -> nth_error raw (2 * (k * i + j)) = Some (key_at (bucket sha seed n q j)) /\
                                          nth_error raw (2 * (k * i + j) + 1) = Some (value_at (bucket sha seed n q j))).
  { intros j Hj. assert (HI : nth_error (map (fun i => (key_at (Z.to_nat i), value_at (Z.to_nat i))) (indices queries)) (k * i + j)
               = Some (key_at (bucket sha seed n q j), value_at (bucket sha seed n q j))).
    { rewrite nth_error_map. unfold indices. rewrite (nth_error_grid _ _ (fun q j => Z.of_nat (bucket sha seed n q j)) k queries i j q Hq Hj).
      cbn [option_map]. rewrite Nat2Z.id. reflexivity. }
    split; [exact (pair_up_even _ _ _ HI)|exact (pair_up_odd _ _ _ HI)]. }
  assert (Hs : forall l (st : option bytes), st <> None -> foldM (fun (result : option bytes) j =>
           match result with
           | Some v => Ok (Some v)
           | None => key <- at_or_ub raw (2 * (k * i + j)) ;;
               if is_prefix_padded key q then value <- at_or_ub raw (2 * (k * i + j) + 1) ;; Ok (Some value) else Ok None
           end) l st = Ok st).
  { clear. induction l as [|j l IH]; intros [v|] H; try congruence; [reflexivity|]. cbn [foldM bind]. apply IH. discriminate. }
  assert (HG : forall l, (forall j, In j l -> (j < k)%nat) -> foldM (fun (result : option bytes) j =>
           match result with
           | Some v => Ok (Some v)
           | None => key <- at_or_ub raw (2 * (k * i + j)) ;;
               if is_prefix_padded key q then value <- at_or_ub raw (2 * (k * i + j) + 1) ;; Ok (Some value) else Ok None
           end) l None
    = Ok (match find (fun j => is_prefix_padded (key_at (bucket sha seed n q j)) q) l with
          | Some j => Some (value_at (bucket sha seed n q j)) | None => None end)).
  { induction l as [|j l IH]; intros HB; [reflexivity|]. cbn [foldM find].
    destruct (Hnth j (HB j (or_introl eq_refl))) as [N1 N2].
    apply at_or_ub_ok in N1, N2. rewrite N1. cbn [bind].
    destruct (is_prefix_padded (key_at (bucket sha seed n q j)) q).
    - rewrite N2. cbn [bind]. apply Hs. discriminate.
    - cbn [bind]. apply IH. intros j' Hj'. apply HB. right. assumption. }
  apply HG. intros j Hj. apply in_seq in Hj. clear - Hj. lia.
Qed.

Lemma cuckoo_round : forall t0 t1 d0 d1 queries seeds pad ch,
  target_ok t0 -> target_ok t1 -> dense_fits clog n t0 -> dense_fits clog n t1 ->
  holds (cd_keys d0) K -> holds (cd_values d0) V -> Z.of_nat (cd_bits d0) = n ->
  holds (cd_keys d1) K -> holds (cd_values d1) V -> Z.of_nat (cd_bits d1) = n ->
  queries <> [] -> length pad = 16%nat ->
  channel_ok ch ->
  cuckoo_exchange aes F clog sha ch p t0 t1 d0 d1 queries seeds pad = Ok (map answer queries).
Proof using Hsha HlenK HlenV HRK HRV Hn HL Hk Hseed Hfam.
  intros t0 t1 d0 d1 queries seeds pad ch T0 T1 F0 F1 K0 V0 B0 K1 V1 B1 Hne Hpad [HS HE].
  pose proof n_pos as Hpos. assert (H60 : (clog n < 60)%Z) by (destruct F0 as [H _]; clear - H; lia).
  assert (Hik : (0 < k)%nat) by (subst k; clear - Hk; lia).
  assert (Hine : indices queries <> []).
  { intros C. apply (f_equal (@length Z)) in C. unfold indices in C. rewrite grid_length in C. cbn [length] in C.
    destruct queries; [congruence|]. cbn [length] in C. clear - C Hik. nia. }
  pose proof (indices_range queries) as Hir.
  pose proof HL as HLK. pose proof Hn as HnK. rewrite <- HlenK in HLK, F0, F1, HnK, H60, Hir.
  destruct (dense_part aes F clog K HRK HnK HLK H60 (indices queries) seeds pad Hine Hir)
    as (d & keys & E0 & E1 & D1 & D2 & D3 & D4 & D5 & D6 & D7).
  destruct (both_products clog K HRK HnK HLK t0 t1 (cd_keys d0) (cd_keys d1) (indices queries) E0 E1 T0 T1 F0 F1 K0 K1 Hine Hir D7)
    as (kr0 & kr1 & KP0 & KP1 & KS & KL & KX).
  assert (HKV : length K = length V) by (apply Nat2Z.inj; congruence).
  assert (D7' : Forall3 (differ clog V) (indices queries) E0 E1).
  { unfold differ in *. rewrite <- HKV. exact D7. }
  assert (HLV : clog_ok clog (Z.of_nat (length V))) by (rewrite <- HKV; exact HLK).
  assert (HnV : (Z.of_nat (length V) < 2147483648)%Z) by (rewrite <- HKV; exact HnK).
  assert (F0V : dense_fits clog (Z.of_nat (length V)) t0) by (rewrite <- HKV; exact F0).
  assert (F1V : dense_fits clog (Z.of_nat (length V)) t1) by (rewrite <- HKV; exact F1).
  assert (HirV : Forall (fun q => 0 <= q < Z.of_nat (length V))%Z (indices queries)) by (rewrite <- HKV; exact Hir).
  destruct (both_products clog V HRV HnV HLV t0 t1 (cd_values d0) (cd_values d1) (indices queries) E0 E1 T0 T1 F0V F1V V0 V1 Hine HirV D7')
    as (vr0 & vr1 & VP0 & VP1 & VS & VL & VX).
  clear HLV HnV F0V F1V HirV D7'.
  rewrite HlenK in D1, D2, D3.
  destruct (fingerprint_total sha seed Hsha) as (fp & Hfp & _).
  pose proof (Forall3_lengths _ _ _ _ _ _ _ D7) as [L0 L1].
  set (c := {| cc_dense := {| dc_dpf := d; dc_size := n |}; cc_functions := fs; cc_buckets := n; cc_fingerprint := fp |}).
  set (s0 := {| cs_params := p; cs_dpf := d; cs_db := d0; cs_fingerprint := fp |}).
  set (s1 := {| cs_params := p; cs_dpf := d; cs_db := d1; cs_fingerprint := fp |}).
  set (q0 := {| pq_keys := map fst keys; pq_fingerprint := to_uint32 fp |}).
  set (q1 := {| pq_keys := map snd keys; pq_fingerprint := to_uint32 fp |}).
  set (h := {| hq_plain := Some q1; hq_seed := pad |}).
  assert (HC : cuckoo_create_plain_requests aes c queries seeds pad = Ok (q0, h, CsCuckoo pad queries)).
  { unfold cuckoo_create_plain_requests. cbn [cc_buckets cc_functions cc_dense cc_fingerprint c]. rewrite indices_ok. cbn [bind].
    change (concat (map (fun q => map (fun j => Z.of_nat (bucket sha seed n q j)) (seq 0 k)) queries)) with (indices queries).
    rewrite D3. reflexivity. }
  assert (Kne0 : map fst keys <> []) by (destruct keys; [congruence|discriminate]).
  assert (Kne1 : map snd keys <> []) by (destruct keys; [congruence|discriminate]).
  assert (Hl0 : length kr0 = length vr0) by congruence.
  pose proof (same_shape_length _ _ KS) as LKS. pose proof (same_shape_length _ _ VS) as LVS.
  assert (HP0 : cuckoo_handle_plain aes t0 s0 (RqPlain q0) = Ok (Some (pair_up (combine kr0 vr0)))).
  { unfold cuckoo_handle_plain. cbn [cs_dpf cs_fingerprint cs_db s0]. unfold q0. rewrite (selections_ok aes d fp _ E0 Kne0 D5). cbn [bind].
    unfold cuckoo_inner_product. rewrite KP0. cbn [bind]. rewrite VP0. cbn [bind].
    replace (Nat.eqb (length kr0) (length vr0) && Nat.eqb (length kr0) (length E0)) with true.
    2:{ symmetry. apply andb_true_intro. split; apply Nat.eqb_eq; [assumption|clear - KL L0 L1; lia]. }
    reflexivity. }
  assert (HP1 : cuckoo_handle_plain aes t1 s1 (RqPlain q1) = Ok (Some (pair_up (combine kr1 vr1)))).
  { unfold cuckoo_handle_plain. cbn [cs_dpf cs_fingerprint cs_db s1]. unfold q1. rewrite (selections_ok aes d fp _ E1 Kne1 D6). cbn [bind].
    unfold cuckoo_inner_product. rewrite KP1. cbn [bind]. rewrite VP1. cbn [bind].
    replace (Nat.eqb (length kr1) (length vr1) && Nat.eqb (length kr1) (length E1)) with true.
    2:{ symmetry. apply andb_true_intro. split; apply Nat.eqb_eq; clear - KL L0 L1 Hl0 LKS LVS; lia. }
    reflexivity. }
  assert (Hrne : pair_up (combine kr0 vr0) <> []).
  { intros C. apply (f_equal (@length bytes)) in C. rewrite pair_up_length, combine_length, <- Hl0, Nat.min_id, KL in C. cbn [length] in C.
    apply Hine. apply length_zero_iff_nil. clear - C. lia. }
  destruct (HE (ch_ser ch h)) as (e & X1 & X2).
  destruct (C34_unmasked aes (ch_par ch) (cuckoo_handle_plain aes t0 s0) (cuckoo_handle_plain aes t1 s1) (ch_dec ch) (ch_context ch) q0 e (ch_ser ch h) h
              (pair_up (combine kr0 vr0)) (pair_up (combine kr1 vr1))) as (r & RR & RC); auto.
  { apply pairs_shape; assumption. }
  rewrite xor_pairs, KX, VX, combine_map_map in RC by (assumption || (symmetry; assumption)).
  unfold cuckoo_exchange. rewrite (client_ok d D2 fp Hfp). fold c. cbn [bind].
  rewrite (server_ok d0 d B0 D1 fp Hfp), (server_ok d1 d B1 D1 fp Hfp). fold s0 s1. cbn [bind].
  unfold create_request. rewrite HC. cbn [bind]. unfold to_leader_request. rewrite X1. cbn [bind]. rewrite RR. cbn [bind].
  cbn [hq_seed h] in RC.
  change (dense_handle_response aes r (CsDense pad) = Ok (pair_up (map (fun i => (key_at (Z.to_nat i), value_at (Z.to_nat i))) (indices queries)))) in RC.
  destruct (dense_response_length _ _ _ _ RC) as (l & -> & Hl).
  rewrite pair_up_length, map_length in Hl. unfold indices in Hl. rewrite grid_length in Hl.
  unfold cuckoo_handle_response. cbn [bind]. cbn [cc_functions c].
  assert (Hfs : length fs = k) by (unfold fs; rewrite map_length, seq_length; reflexivity). rewrite Hfs.
  replace (Nat.eqb (length queries * k * 2) (length l)) with true by (symmetry; apply Nat.eqb_eq; clear - Hl; lia).
  cbn [check bind]. rewrite RC. cbn [bind]. destruct (Nat.eqb_spec k 0) as [C|_]; [clear - C Hik; lia|].
  rewrite pair_up_length, map_length. unfold indices at 2. rewrite grid_length.
  replace (Nat.div (Nat.div (2 * (length queries * k)) k) 2) with (length queries).
  2:{ replace (2 * (length queries * k))%nat with (length queries * 2 * k)%nat by (clear; lia).
      rewrite Nat.div_mul by (clear - Hik; lia). rewrite Nat.div_mul by discriminate. reflexivity. }
  apply mapM_ok_iff. apply Forall2_nth_error. split; [rewrite seq_length, map_length; reflexivity|].
  intros i a b Ha Hb. rewrite nth_error_map in Hb. destruct (nth_error queries i) as [q|] eqn:Eq; [|discriminate].
  injection Hb as <-. assert (Hi : (i < length queries)%nat) by (apply nth_error_Some; congruence).
  rewrite nth_error_seq in Ha by assumption. injection Ha as <-. cbn [Nat.add].
  unfold at_or_ub at 1. rewrite Eq. cbn [bind]. apply answers_ok, Eq.
Qed.
End CuckooRound.

(** * Simple hashing end to end *)

Lemma nth_error_combine' : forall A B (l1 : list A) (l2 : list B) i,
  nth_error (combine l1 l2) i = match nth_error l1 i, nth_error l2 i with Some a, Some b => Some (a, b) | _, _ => None end.
Proof.
  induction l1 as [|a l1 IH]; intros [|b l2] [|i]; try reflexivity.
  - cbn [combine nth_error]. destruct (nth_error l1 i); reflexivity.
  - cbn [combine nth_error]. apply IH.
Qed.

Section SimpleRound.
Variables (aes : N -> N -> N) (F : fops) (clog : Z -> Z) (sha : bytes -> bytes) (p : simple_params) (kvs : list (bytes * bytes)).
Let n := sp_buckets p.
Let seed := hf_seed (sp_hash p).
Let R := map (fun i => serialize_bucket (proto_of (load sha seed n kvs i))) (seq 0 (Z.to_nat n)).
Hypothesis Hsha : forall x, length (sha x) = 32%nat.
Hypothesis Hn : (0 < n < 2147483648)%Z.
Hypothesis HL : clog_ok clog n.
Hypothesis Hseed : seed <> [].
Hypothesis Hfam : hf_family (sp_hash p) = 1%Z.
Hypothesis Hb : Forall (fun kv => is_bytes (fst kv) /\ is_bytes (snd kv)) kvs.
Hypothesis Hne : kvs <> [].
Hypothesis HS : Forall (fun r => N.of_nat (length r) < 2 ^ 31) R.

Lemma R_length : Z.of_nat (length R) = n.
Proof using Hn. unfold R. rewrite map_length, seq_length. clear - Hn. lia. Qed.
Lemma R_nth : forall i, (i < Z.to_nat n)%nat -> nth i R [] = serialize_bucket (proto_of (load sha seed n kvs i)).
Proof using.
  intros i Hi. apply nth_error_nth. unfold R. rewrite nth_error_map, nth_error_seq by assumption. reflexivity.
Qed.
Lemma bucket_lt : forall q j, (bucket sha seed n q j < Z.to_nat n)%nat.
Proof using Hsha Hn. intros q j. pose proof (function_value sha seed q n j Hsha Hn) as [_ HB]. clear - HB. lia. Qed.
Lemma R_ok : records_ok R.
Proof using Hsha Hn Hb Hne HS.
  split.
  - apply Forall_forall. intros r Hr. pose proof (proj1 (Forall_forall _ _) HS r Hr) as H. cbn beta in H. split; [|clear - H; lia].
    unfold R in Hr. apply in_map_iff in Hr. destruct Hr as (i & <- & _). unfold serialize_bucket, is_bytes. apply Forall_app.
    unfold proto_of. cbn [fst snd].
    assert (HF : Forall (fun kv => is_bytes (fst kv) /\ is_bytes (snd kv)) (load sha seed n kvs i)).
    { apply Forall_forall. intros kv Hkv. unfold load in Hkv. apply filter_In in Hkv. exact (proj1 (Forall_forall _ _) Hb kv (proj1 Hkv)). }
    split; (apply encode_bytes; [reflexivity|]); rewrite Forall_map; (eapply Forall_impl; [|exact HF]); cbn beta; tauto.
  - destruct kvs as [|[k v] l] eqn:E; [congruence|]. apply Exists_exists.
    exists (serialize_bucket (proto_of (load sha seed n ((k, v) :: l) (bucket sha seed n k 0)))). split.
    + unfold R. apply in_map_iff. exists (bucket sha seed n k 0). split; [reflexivity|]. apply in_seq. pose proof (bucket_lt k 0) as H. clear - H. lia.
    + unfold load. cbn [filter fst]. rewrite Nat.eqb_refl. unfold serialize_bucket, proto_of. cbn [map fst snd flat_map encode_field]. discriminate.
Qed.

Lemma record_small : forall i kv, (i < Z.to_nat n)%nat -> In kv (load sha seed n kvs i) -> small (fst kv) /\ small (snd kv).
Proof using HS.
  intros i kv Hi Hkv. assert (H : N.of_nat (length (serialize_bucket (proto_of (load sha seed n kvs i)))) < 2 ^ 31).
  { apply (proj1 (Forall_forall _ _) HS). unfold R. apply in_map_iff. exists i. split; [reflexivity|]. apply in_seq. clear - Hi. lia. }
  unfold serialize_bucket, proto_of in H. cbn [fst snd] in H. rewrite app_length in H.
  assert (HX : forall tag l d, In d l -> (length d <= length (flat_map (encode_field tag) l))%nat).
  { clear. intros tag l. induction l as [|x l IH]; intros d Hd; [destruct Hd|]. cbn [flat_map]. rewrite app_length. destruct Hd as [->|Hd].
    - unfold encode_field. cbn [length]. rewrite app_length. lia.
    - specialize (IH d Hd). lia. }
  pose proof (HX 10 _ _ (in_map fst _ _ Hkv)) as H1. pose proof (HX 18 _ _ (in_map snd _ _ Hkv)) as H2.
  unfold small. change (2 ^ 31) with 2147483648 in H. change (2 ^ 63) with 9223372036854775808. unfold bytes in *. clear - H H1 H2. lia.
Qed.

Lemma simple_answer : forall q, let '(keys, values) := parse_bucket (zero_padded (longest R) (nth (bucket sha seed n q 0) R [])) in
  simple_search keys 0 values q = Ok (first_value kvs q).
Proof using Hsha Hn HS.
  intros q. pose proof (bucket_lt q 0) as Hi. rewrite R_nth by assumption. unfold zero_padded. rewrite parse_serialized.
  - cbn [proto_of]. unfold proto_of. rewrite <- (first_load sha seed n kvs q). exact (search_ok (load sha seed n kvs (bucket sha seed n q 0)) [] q).
  - unfold proto_of. cbn [fst]. rewrite Forall_map. apply Forall_forall. intros kv Hkv. exact (proj1 (record_small _ kv Hi Hkv)).
  - unfold proto_of. cbn [snd]. rewrite Forall_map. apply Forall_forall. intros kv Hkv. exact (proj2 (record_small _ kv Hi Hkv)).
Qed.

Lemma simple_round : forall t0 t1 d0 d1 queries seeds pad ch,
  target_ok t0 -> target_ok t1 -> dense_fits clog n t0 -> dense_fits clog n t1 ->
  holds (sd_dense d0) R -> sd_bits d0 = n -> holds (sd_dense d1) R -> sd_bits d1 = n ->
  queries <> [] -> length pad = 16%nat ->
  channel_ok ch ->
  simple_exchange aes F clog sha ch p t0 t1 d0 d1 queries seeds pad = Ok (map (first_value kvs) queries).
Proof using Hsha Hn HL Hseed Hfam Hb Hne HS.
  intros t0 t1 d0 d1 queries seeds pad ch T0 T1 F0 F1 K0 B0 K1 B1 Hqne Hpad [HSer HE].
  assert (H60 : (clog n < 60)%Z) by (destruct F0 as [H _]; clear - H; lia).
  set (indices := map (fun q => Z.of_nat (bucket sha seed n q 0)) queries).
  assert (Hine : indices <> []) by (unfold indices; destruct queries; [congruence|discriminate]).
  assert (Hir : Forall (fun q => 0 <= q < n)%Z indices).
  { apply Forall_forall. intros x Hx. apply in_map_iff in Hx. destruct Hx as (q & <- & _). pose proof (bucket_lt q 0) as H. clear - H Hn. lia. }
  pose proof R_length as HlenR. pose proof HL as HLR. assert (HnR : (n < 2147483648)%Z) by (clear - Hn; lia).
  rewrite <- HlenR in HLR, F0, F1, HnR, H60, Hir.
  destruct (dense_part aes F clog R R_ok HnR HLR H60 indices seeds pad Hine Hir)
    as (d & keys & E0 & E1 & D1 & D2 & D3 & D4 & D5 & D6 & D7).
  destruct (both_products clog R R_ok HnR HLR t0 t1 (sd_dense d0) (sd_dense d1) indices E0 E1 T0 T1 F0 F1 K0 K1 Hine Hir D7)
    as (r0 & r1 & P0 & P1 & RS & RL & RX).
  rewrite HlenR in D1, D2, D3.
  destruct (fingerprint_total sha seed Hsha) as (fp & Hfp & _).
  set (f := sha256_hash_function sha (seed ++ str_cat 0)).
  set (c := {| sc_dense := {| dc_dpf := d; dc_size := n |}; sc_function := f; sc_buckets := n; sc_fingerprint := fp |}).
  set (s0 := {| ss_params := p; ss_dpf := d; ss_db := d0; ss_fingerprint := fp |}).
  set (s1 := {| ss_params := p; ss_dpf := d; ss_db := d1; ss_fingerprint := fp |}).
  set (q0 := {| pq_keys := map fst keys; pq_fingerprint := to_uint32 fp |}).
  set (q1 := {| pq_keys := map snd keys; pq_fingerprint := to_uint32 fp |}).
  set (h := {| hq_plain := Some q1; hq_seed := pad |}).
  assert (Hcl : simple_client_create sha F clog (PpSimple p) true = Ok c).
  { unfold simple_client_create. cbn [check bind]. fold n. assert (negb (n <=? 0)%Z = true) as -> by (clear - Hn; lia).
    cbn [check bind]. unfold hash_family_from_config. fold seed. rewrite Hfam.
    replace (negb (Nat.eqb (length seed) 0)) with true by (destruct seed; [congruence|reflexivity]). cbn [Z.eqb Pos.eqb check bind].
    rewrite Hfp. cbn [bind]. unfold create_hash_functions. change (Z.to_nat 1) with 1%nat. change (1 <? 0)%Z with false.
    cbn [negb check bind seq map rev app]. rewrite D2. cbn [bind]. rewrite to_int32_id by (clear - Hn; lia). reflexivity. }
  assert (Hsv : forall db, sd_bits db = n -> simple_create_plain sha F clog p (Some db)
                = Ok {| ss_params := p; ss_dpf := d; ss_db := db; ss_fingerprint := fp |}).
  { intros db Hdb. unfold simple_create_plain. fold n. assert (negb (n <=? 0)%Z = true) as -> by (clear - Hn; lia).
    rewrite Hfam. cbn [Z.eqb negb check bind]. rewrite Hdb, Z.eqb_refl. cbn [check bind]. rewrite D1. cbn [bind]. fold seed. rewrite Hfp. reflexivity. }
  assert (HC : simple_create_plain_requests aes c queries seeds pad = Ok (q0, h, CsSimple pad queries)).
  { unfold simple_create_plain_requests. cbn [sc_function sc_buckets sc_dense sc_fingerprint c].
    assert (HM : mapM (fun q => f q n) queries = Ok indices).
    { apply mapM_map_ok. intros q _. exact (proj1 (function_value sha seed q n 0 Hsha Hn)). }
    unfold hash_function in *. rewrite HM. cbn [bind]. rewrite D3. reflexivity. }
  assert (Kne0 : map fst keys <> []) by (destruct keys; [congruence|discriminate]).
  assert (Kne1 : map snd keys <> []) by (destruct keys; [congruence|discriminate]).
  assert (HP0 : simple_handle_plain aes t0 s0 (RqPlain q0) = Ok (Some r0)).
  { unfold simple_handle_plain. cbn [ss_dpf ss_fingerprint ss_db s0]. unfold q0. rewrite (selections_ok aes d fp _ E0 Kne0 D5). cbn [bind].
    rewrite P0. reflexivity. }
  assert (HP1 : simple_handle_plain aes t1 s1 (RqPlain q1) = Ok (Some r1)).
  { unfold simple_handle_plain. cbn [ss_dpf ss_fingerprint ss_db s1]. unfold q1. rewrite (selections_ok aes d fp _ E1 Kne1 D6). cbn [bind].
    rewrite P1. reflexivity. }
  assert (Hrne : r0 <> []).
  { intros C. apply (f_equal (@length bytes)) in C. rewrite RL in C. apply Hine, length_zero_iff_nil, C. }
  destruct (HE (ch_ser ch h)) as (e & X1 & X2).
  destruct (C34_unmasked aes (ch_par ch) (simple_handle_plain aes t0 s0) (simple_handle_plain aes t1 s1) (ch_dec ch) (ch_context ch) q0 e (ch_ser ch h) h
              r0 r1) as (r & RR & RC); auto.
  rewrite RX in RC.
  unfold simple_exchange. rewrite Hcl. cbn [bind].
  rewrite (Hsv d0 B0), (Hsv d1 B1). fold s0 s1. cbn [bind].
  unfold create_request. rewrite HC. cbn [bind]. unfold to_leader_request. rewrite X1. cbn [bind]. rewrite RR. cbn [bind].
  cbn [hq_seed h] in RC. unfold indices in RC. rewrite map_map in RC.
  destruct (dense_response_length _ _ _ _ RC) as (l & -> & Hl). rewrite map_length in Hl.
  unfold simple_handle_response. cbn [bind]. rewrite Hl, Nat.eqb_refl. cbn [check bind]. rewrite RC. cbn [bind].
  rewrite map_length. apply mapM_ok_iff. apply Forall2_nth_error.
  split; [rewrite combine_length, seq_length, !map_length; apply Nat.min_id|].
  intros i a b Ha Hbb. rewrite nth_error_map in Hbb. destruct (nth_error queries i) as [q|] eqn:Eq; [|discriminate].
  injection Hbb as <-. assert (Hi : (i < length queries)%nat) by (apply nth_error_Some; congruence).
  rewrite nth_error_combine', nth_error_seq, nth_error_map, Eq in Ha by assumption. cbn [option_map Nat.add] in Ha. injection Ha as <-.
  cbn [fst snd]. rewrite (proj2 (at_or_ub_ok _ _ _ _) Eq). cbn [bind]. rewrite Nat2Z.id. pose proof (simple_answer q) as HA. destruct (parse_bucket _) as [ks vs]. exact HA.
Qed.
End SimpleRound.
