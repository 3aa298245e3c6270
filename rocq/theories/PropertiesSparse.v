(** Properties of sparse PIR: C38 (cuckoo hashed database), C39 and C40 (cuckoo sparse PIR), C41
    (simple hashed sparse PIR) and C45 (fingerprints). *)
From Coq Require Import List NArith ZArith Lia Bool Permutation ZifyBool ZifyNat ZifyN.
From Verif Require Import Base ListUtil ValueTypesModel DpfModel DpfSpec DpfExamples PirDbModel PirSpec PirIpProofs PirBuildProofs PirModel
  PirProtoSpec PirProtoProofs PirDenseProofs PropertiesPir PropertiesPirProto HashModel HashSpec HashProofs SparseModel SparseSpec
  SparseDbProofs SparseProofs ChannelExample.
Import ListNotations.
Open Scope N_scope.
Ltac Zify.zify_post_hook ::= Z.div_mod_to_equations.

Lemma holds_inj : forall d K K', holds d K -> holds d K' -> K = K'.
Proof. intros d K K' ((v & C & <-) & _) ((v' & C' & <-) & _). congruence. Qed.

Definition nonempty (b : bytes) : bool := negb (Nat.eqb (length b) 0).

(** ** C38: the cuckoo hashed database *)

Section Contents.
Variables (sha : bytes -> bytes) (g : gsparse cuckoo_params).
Let p := gs_params g.
Let kvs := gs_records g.
Let k := Z.to_nat (cp_functions p).

(** [K] and [V] are the keys and the values in the buckets and [lost] the keys without a bucket. *)
Record contents (K V lost : list bytes) : Prop := {
  ct_keys : Z.of_nat (length K) = cp_buckets p;
  ct_values : length V = length K;
  ct_perm : Permutation (distinct_keys kvs) (lost ++ filter nonempty K);
  ct_place : forall i key, nth_error K i = Some key -> key <> [] ->
    exists j, (j < k)%nat /\ i = bucket sha (hf_seed (cp_hash p)) (cp_buckets p) key j;
  ct_value : forall i key, nth_error K i = Some key -> key <> [] -> nth_error V i = first_value kvs key;
  ct_empty : forall i, nth_error K i = Some [] -> nth_error V i = Some []
}.
End Contents.

Lemma stored_contents : forall sha g table lost, stored sha g table lost -> to_int32 (cp_buckets (gs_params g)) = cp_buckets (gs_params g) ->
  Forall (fun kv => fst kv <> []) (gs_records g) ->
  contents sha g (map slot_key table) (map (slot_value (gs_records g)) table) lost.
Proof.
  intros sha g table lost [S1 S2 S3] Hn He. rewrite Hn in *.
  assert (HIn : forall e, In e (elements table) -> e <> [] /\ exists v, first_value (gs_records g) e = Some v).
  { intros e H. assert (HI : In e (distinct_keys (gs_records g))).
    { eapply Permutation_in; [symmetry; exact S2|]. apply in_app_iff. right. exact H. }
    unfold distinct_keys in HI. rewrite nodup_In in HI. split.
    - apply in_map_iff in HI. destruct HI as (kv & <- & HI). exact (proj1 (Forall_forall _ _) He kv HI).
    - destruct (first_value (gs_records g) e) as [v|] eqn:E; [eauto|]. apply first_value_none in E. contradiction. }
  assert (HEl : forall i e, nth_error table i = Some (Some e) -> In e (elements table)).
  { clear. induction table as [|s table IH]; intros [|i] e H; cbn [nth_error] in H; try discriminate.
    - injection H as ->. left. reflexivity.
    - specialize (IH i e H). destruct s; [right|]; exact IH. }
  constructor.
  - rewrite map_length. exact S1.
  - rewrite !map_length. reflexivity.
  - replace (filter nonempty (map slot_key table)) with (elements table); [exact S2|]. clear - HIn.
    induction table as [|[e|] table IH]; [reflexivity| |].
    + cbn [map slot_key filter]. destruct (HIn e (or_introl eq_refl)) as [Hne _]. unfold nonempty at 1. destruct e; [congruence|].
      cbn [length Nat.eqb negb]. cbn [elements flat_map app]. f_equal. apply IH. intros e' H'. apply HIn. right. exact H'.
    + cbn [map slot_key filter]. change (nonempty []) with false. cbn [elements flat_map app]. apply IH. intros e' H'. apply HIn. exact H'.
  - intros i key H Hne. rewrite nth_error_map in H. destruct (nth_error table i) as [[e|]|] eqn:E; cbn [option_map slot_key] in H; [|congruence|discriminate].
    injection H as ->. exact (S3 i key E).
  - intros i key H Hne. rewrite nth_error_map in H |- *. destruct (nth_error table i) as [[e|]|] eqn:E; cbn [option_map slot_key] in H |- *; [|congruence|discriminate].
    injection H as ->. cbn [slot_value]. destruct (HIn key (HEl i key E)) as [_ [v Hv]]. rewrite Hv. reflexivity.
  - intros i H. rewrite nth_error_map in H |- *. destruct (nth_error table i) as [[e|]|] eqn:E; cbn [option_map slot_key slot_value] in H |- *; [|reflexivity|discriminate].
    injection H as ->. destruct (HIn [] (HEl i [] E)) as [C _]. congruence.
Qed.

Lemma crun_built : forall sha rnd ak av ops d, cuckoo_build sha rnd ak av (crun ops) = Ok d -> gs_built (gcrun ops) = false.
Proof.
  intros sha rnd ak av ops d H. destruct (gs_built (gcrun ops)) eqn:E; [|reflexivity].
  unfold cuckoo_build in H. rewrite (cs_b _ _ (crun_sim ops)), E in H. discriminate.
Qed.

(** For every history of builder calls, every SHA-256 function and all random choices: after a
    successful Build the distinct inserted keys are those in the buckets and the [lost] ones; each
    stored key is in a bucket of one of its hash functions, with the value first inserted for it;
    the other buckets are empty.  The claim that [lost] is empty is refuted below. *)
Theorem C38_partial : forall sha rnd ak av ops d,
  let g := gcrun ops in let p := gs_params g in let kvs := gs_records g in
  (forall x, length (sha x) = 32%nat) -> (forall i, (rnd i < Z.to_nat (cp_functions p))%nat) -> alloc_ok ak -> alloc_ok av ->
  total_bytes kvs + 16 * Z.to_N (cp_buckets p) < 2 ^ 62 ->
  cuckoo_build sha rnd ak av (crun ops) = Ok d ->
  exists K V lost, holds (cd_keys d) K /\ holds (cd_values d) V /\ contents sha g K V lost /\
    cd_size d = Z.of_nat (length (distinct_keys kvs)) /\ Z.of_nat (cd_bits d) = cp_buckets p.
Proof.
  intros sha rnd ak av ops d g p kvs Hsha Hrnd Hak Hav Hsize HB.
  pose proof (crun_sim ops) as Hsim. fold g in Hsim. pose proof (crun_built _ _ _ _ _ _ HB) as Hnb. fold g in Hnb.
  pose proof (build_params sha rnd ak av _ g Hsha Hsim Hnb d HB) as HP.
  destruct (build_total sha rnd ak av _ g Hsha Hsim Hnb Hrnd Hak Hav HP Hsize) as (d' & c & _ & E & ST & HK & HV & Hs & Hb).
  rewrite HB in E. cbn [fst] in E. destruct (Z.eqb_spec (to_int32 (cp_buckets (gs_params g))) (cp_buckets (gs_params g))) as [Hn|]; [|discriminate].
  injection E as <-. exists (map slot_key (ck_table c)), (map (slot_value kvs) (ck_table c)), (ck_stash c).
  split; [exact HK|]. split; [exact HV|]. split; [|split; [exact Hs|rewrite Hb; exact Hn]].
  apply stored_contents; [exact ST|exact Hn|]. apply HP.
Qed.
Print Assumptions C38_partial.

Lemma in_first_value : forall kvs key, In key (distinct_keys kvs) <-> exists v, first_value kvs key = Some v.
Proof.
  intros kvs key. unfold distinct_keys. rewrite nodup_In. destruct (first_value kvs key) as [v|] eqn:E.
  - split; [eauto|]. intros _. apply first_value_in in E. apply in_map_iff. exists (key, v). auto.
  - split; [intros H; apply first_value_none in E; contradiction|intros [v H]; discriminate].
Qed.
Lemma permutation_lost : forall kvs K lost key, Permutation (distinct_keys kvs) (lost ++ filter nonempty K) -> In key (distinct_keys kvs) ->
  In key lost \/ In key K /\ key <> [].
Proof.
  intros kvs K lost key P H. apply (Permutation_in _ P), in_app_iff in H. destruct H as [H|H]; [left; exact H|right].
  apply filter_In in H. destruct H as [H Hn]. split; [exact H|]. destruct key; discriminate.
Qed.

(** No key is lost exactly when the number of occupied buckets is the size of the database; then every
    inserted pair (first value per key) is in a bucket of its key. *)
Theorem C38_all_stored_partial : forall sha g K V lost, contents sha g K V lost ->
  length (filter nonempty K) = length (distinct_keys (gs_records g)) ->
  forall key v, first_value (gs_records g) key = Some v -> exists j, (j < Z.to_nat (cp_functions (gs_params g)))%nat /\
    nth_error K (bucket sha (hf_seed (cp_hash (gs_params g))) (cp_buckets (gs_params g)) key j) = Some key /\
    nth_error V (bucket sha (hf_seed (cp_hash (gs_params g))) (cp_buckets (gs_params g)) key j) = Some v.
Proof.
  intros sha g K V lost [C1 C2 C3 C4 C5 C6] HL key v Hv.
  assert (Hlost : lost = []).
  { apply Permutation_length in C3. rewrite app_length in C3. apply length_zero_iff_nil. lia. }
  subst lost. destruct (permutation_lost _ _ _ key C3) as [[]|[HI Hne]]; [apply in_first_value; eauto|].
  apply In_nth_error in HI. destruct HI as [i Hi]. destruct (C4 i key Hi Hne) as (j & Hj & ->).
  exists j. split; [exact Hj|]. split; [exact Hi|]. rewrite (C5 _ key Hi Hne). exact Hv.
Qed.
Print Assumptions C38_all_stored_partial.

(** Build does not report that a key has no bucket: with valid parameters it succeeds. *)
Theorem C38_build_succeeds : forall sha rnd ak av ops,
  let g := gcrun ops in let p := gs_params g in let kvs := gs_records g in
  (forall x, length (sha x) = 32%nat) -> (forall i, (rnd i < Z.to_nat (cp_functions p))%nat) -> alloc_ok ak -> alloc_ok av ->
  total_bytes kvs + 16 * Z.to_N (cp_buckets p) < 2 ^ 62 -> gs_built g = false ->
  (0 < cp_buckets p < 2147483648)%Z -> (2 <= cp_functions p)%Z -> hf_seed (cp_hash p) <> [] -> hf_family (cp_hash p) = 1%Z ->
  Forall (fun kv => fst kv <> []) kvs -> (Z.of_nat (length (distinct_keys kvs)) < 2147483648)%Z ->
  exists d, cuckoo_build sha rnd ak av (crun ops) = Ok d.
Proof.
  intros sha rnd ak av ops g p kvs Hsha Hrnd Hak Hav Hsize Hnb Hn Hk Hs Hf He Hl.
  pose proof (crun_sim ops) as Hsim. fold g in Hsim.
  assert (Hn' : to_int32 (cp_buckets p) = cp_buckets p) by (apply to_int32_id; lia).
  assert (HP : params_ok g).
  { unfold params_ok. fold p. rewrite Hn'. fold kvs. rewrite to_int32_id by lia. repeat split; try lia; assumption. }
  destruct (build_total sha rnd ak av _ g Hsha Hsim Hnb Hrnd Hak Hav HP Hsize) as (d & c & _ & E & _).
  fold p in E. rewrite Hn', Z.eqb_refl in E. exists d. exact E.
Qed.
Print Assumptions C38_build_succeeds.

(** Whenever there are more keys than buckets, a successful Build has lost a key. *)
Theorem C38_overfull : forall sha rnd ak av ops d,
  let g := gcrun ops in let p := gs_params g in let kvs := gs_records g in
  (forall x, length (sha x) = 32%nat) -> (forall i, (rnd i < Z.to_nat (cp_functions p))%nat) -> alloc_ok ak -> alloc_ok av ->
  total_bytes kvs + 16 * Z.to_N (cp_buckets p) < 2 ^ 62 ->
  cuckoo_build sha rnd ak av (crun ops) = Ok d ->
  (cp_buckets p < Z.of_nat (length (distinct_keys kvs)))%Z ->
  exists key v, first_value kvs key = Some v /\ forall K, holds (cd_keys d) K -> ~ In key K.
Proof.
  intros sha rnd ak av ops d g p kvs Hsha Hrnd Hak Hav Hsize HB Hlt.
  destruct (C38_partial sha rnd ak av ops d Hsha Hrnd Hak Hav Hsize HB) as (K & V & lost & HK & _ & [C1 C2 C3 C4 C5 C6] & _). fold g in C1, C3. fold p in C1. fold kvs in C3.
  pose proof (Permutation_NoDup C3 (NoDup_nodup _ _)) as HN.
  destruct lost as [|key lost].
  - exfalso. apply Permutation_length in C3. cbn [app] in C3. assert (HF : (length (filter nonempty K) <= length K)%nat).
    { clear. induction K as [|x K IH]; [apply Nat.le_refl|]. cbn [filter]. destruct (nonempty x); cbn [length]; lia. }
    fold kvs in C3. unfold bytes in *. lia.
  - assert (HI : In key (distinct_keys kvs)) by (eapply Permutation_in; [symmetry; exact C3|left; reflexivity]).
    destruct (proj1 (in_first_value kvs key) HI) as [v Hv]. exists key, v. split; [exact Hv|].
    intros K' HK'. rewrite (holds_inj _ _ _ HK' HK). intros HC. cbn [app] in HN. inversion HN as [|? ? HN1 HN2]; subst.
    apply HN1. apply in_app_iff. right. apply filter_In. split; [exact HC|].
    pose proof (build_params sha rnd ak av _ g Hsha (crun_sim ops) (crun_built _ _ _ _ _ _ HB) d HB) as HP.
    assert (Hne : key <> []).
    { apply first_value_in in Hv. destruct HP as (_ & _ & _ & _ & _ & HP & _). exact (proj1 (Forall_forall _ _) HP _ Hv). }
    destruct key; [congruence|reflexivity].
Qed.
Print Assumptions C38_overfull.

(** An example: parameters with seed 1, two hash functions and [n] buckets; the hash is the sum of the
    bytes. *)
Definition xq_sha (x : bytes) : bytes := (fold_right N.add 0 x) mod 256 :: repeat 0 31.
Lemma xq_sha_ok : forall x, length (xq_sha x) = 32%nat.
Proof. reflexivity. Qed.
Definition xq_params (n : Z) : cuckoo_params := {| cp_hash := {| hf_family := 1; hf_seed := [1] |}; cp_functions := 2; cp_buckets := n |}.
Definition xq_rnd (i : nat) : nat := Nat.modulo i 2.
Lemma xq_rnd_ok : forall i, (xq_rnd i < 2)%nat.
Proof. intros i. apply Nat.mod_upper_bound. discriminate. Qed.
Lemma xa_alloc_ok : alloc_ok xa_alloc.
Proof. intros k. apply N.le_refl. Qed.

(** What the first Build leaves behind. *)
Definition xq_left : cuckoo_builder :=
  {| cb_params := default_cuckoo_params; cb_keys := Some (insert new_builder [9; 9]); cb_values := None;
     cb_records := [([9], [9])]; cb_built := false |}.
(** Four buckets; one key is inserted twice and two insertions and a Build precede Clear. *)
Definition xq_ops : list cop :=
  [CInsert ([7], [7]); CBuild xq_left; CInsert ([8], [8]); CClear; CSetParams (xq_params 4); CInsert ([97; 98], [1; 2; 3]); CInsert ([99], [4]);
   CInsert ([97; 98], [5]); CSetKeyBuilder (Some new_builder); CInsert ([101; 1; 3], [6; 6])].
Definition xq_db : res cuckoo_db := Eval vm_compute in cuckoo_build xq_sha xq_rnd xa_alloc xa_alloc (crun xq_ops).
Definition xq_K : list bytes := [[97; 98]; [99]; [101; 1; 3]; []].
Definition xq_V : list bytes := [[1; 2; 3]; [4]; [6; 6]; []].
Example C38_nonvacuous :
  match xq_db with
  | Ok d => holds (cd_keys d) xq_K /\ holds (cd_values d) xq_V /\ cd_size d = 3%Z
  | _ => False
  end /\
  total_bytes (gs_records (gcrun xq_ops)) + 16 * Z.to_N (cp_buckets (gs_params (gcrun xq_ops))) < 2 ^ 62 /\
  length (filter nonempty xq_K) = length (distinct_keys (gs_records (gcrun xq_ops))).
Proof.
  split; [|split; vm_compute; reflexivity].
  unfold xq_db. split; [|split]; [..|reflexivity]; (split; [|split; vm_compute; reflexivity]); eexists; split; vm_compute; reflexivity.
Qed.

(** Three keys, four buckets, one key lost: Build is content with three evictions. *)
Definition xq_lost : list cop := [CSetParams (xq_params 4); CInsert ([97; 98], [1; 2; 3]); CInsert ([99], [4]); CInsert ([100; 101; 102], [6; 6])].
Theorem C38_refuted : exists sha rnd ak av ops d key v,
  let g := gcrun ops in let p := gs_params g in let kvs := gs_records g in
  (forall x, length (sha x) = 32%nat) /\ (forall i, (rnd i < Z.to_nat (cp_functions p))%nat) /\ alloc_ok ak /\ alloc_ok av /\
  (Z.of_nat (length (distinct_keys kvs)) < cp_buckets p)%Z /\
  cuckoo_build sha rnd ak av (crun ops) = Ok d /\
  first_value kvs key = Some v /\ forall K, holds (cd_keys d) K -> ~ In key K.
Proof.
  exists xq_sha, xq_rnd, xa_alloc, xa_alloc, xq_lost. eexists. exists [100; 101; 102], [6; 6].
  split; [exact xq_sha_ok|]. split; [exact xq_rnd_ok|]. split; [exact xa_alloc_ok|]. split; [exact xa_alloc_ok|].
  split; [vm_compute; reflexivity|]. split; [vm_compute; reflexivity|]. split; [vm_compute; reflexivity|].
  intros K HK. assert (HK' : K = [[99]; [97; 98]; []; []]).
  { eapply holds_inj; [exact HK|]. split; [|split; vm_compute; reflexivity]. eexists. split; vm_compute; reflexivity. }
  subst K. intros H. cbn [In] in H. repeat (destruct H as [H|H]; [discriminate|]). destruct H.
Qed.
Print Assumptions C38_refuted.
Definition xq_full : list cop := [CSetParams (xq_params 1); CInsert ([97], [5]); CInsert ([98], [6])].
Example C38_overfull_nonvacuous :
  match cuckoo_build xq_sha xq_rnd xa_alloc xa_alloc (crun xq_full) with Ok _ => True | _ => False end /\
  (cp_buckets (gs_params (gcrun xq_full)) < Z.of_nat (length (distinct_keys (gs_records (gcrun xq_full)))))%Z.
Proof. vm_compute. repeat split. Qed.

(** ** C39 and C40: cuckoo sparse PIR end to end *)

Lemma longest_le : forall l x, In x l -> (length x <= longest l)%nat.
Proof.
  induction l as [|y l IH]; intros x H; [destruct H|]. unfold longest in *. cbn [fold_right]. destruct H as [->|H]; [lia|]. specialize (IH x H). lia.
Qed.
Lemma prefix_iff : forall size key q, (length key <= size)%nat ->
  is_prefix_padded (zero_padded size key) q = true <-> stripped key = stripped (firstn size q).
Proof.
  intros size key q H. rewrite is_prefix_padded_spec.
  assert (HL : length (zero_padded size key) = size) by (unfold zero_padded; rewrite app_length, repeat_length; lia). rewrite HL.
  replace (firstn size (q ++ repeat 0 size)) with (zero_padded size (firstn size q)).
  - apply zero_padded_stripped; [exact H|]. rewrite firstn_length. lia.
  - assert (HR : forall m k, (m <= k)%nat -> firstn m (repeat 0 k) = repeat 0 m).
    { clear. induction m as [|m IH]; intros k Hk; [reflexivity|]. destruct k; [lia|]. cbn [repeat firstn]. rewrite IH by lia. reflexivity. }
    unfold zero_padded. rewrite firstn_app, firstn_length, HR by lia. do 2 f_equal. lia.
Qed.

(** The answer to a query is the value of the first of its buckets whose key agrees with the query in
    the first [longest K] bytes, up to trailing zeros. *)
Lemma answer_spec : forall sha p K V q,
  Forall (fun j => (bucket sha (hf_seed (cp_hash p)) (cp_buckets p) q j < length K)%nat) (seq 0 (Z.to_nat (cp_functions p))) ->
  match answer sha p K V q with
  | Some w => exists j, (j < Z.to_nat (cp_functions p))%nat /\
      let i := bucket sha (hf_seed (cp_hash p)) (cp_buckets p) q j in
      (i < length K)%nat /\ stripped (nth i K []) = stripped (firstn (longest K) q) /\ w = zero_padded (longest V) (nth i V [])
  | None => forall j, (j < Z.to_nat (cp_functions p))%nat ->
      stripped (nth (bucket sha (hf_seed (cp_hash p)) (cp_buckets p) q j) K []) <> stripped (firstn (longest K) q)
  end.
Proof.
  intros sha p K V q HB. unfold answer. rewrite Forall_forall in HB.
  assert (HP : forall j, In j (seq 0 (Z.to_nat (cp_functions p))) ->
    (is_prefix_padded (key_at K (bucket sha (hf_seed (cp_hash p)) (cp_buckets p) q j)) q = true <->
     stripped (nth (bucket sha (hf_seed (cp_hash p)) (cp_buckets p) q j) K []) = stripped (firstn (longest K) q))).
  { intros j Hj. apply prefix_iff. apply longest_le, nth_In, HB, Hj. }
  destruct (find _ _) as [j|] eqn:E.
  - apply find_some in E. destruct E as [Hj E]. apply HP in E; [|exact Hj]. exists j. pose proof (HB j Hj) as Hb. apply in_seq in Hj.
    split; [lia|]. split; [exact Hb|]. split; [exact E|reflexivity].
  - intros j Hj C. assert (HI : In j (seq 0 (Z.to_nat (cp_functions p)))) by (apply in_seq; lia).
    apply HP in C; [|exact HI]. rewrite (find_none _ _ E j HI) in C. discriminate.
Qed.

(** What both servers need: the Leader's and the Helper's database are built from the same parameters
    and pairs (in any order), with any buffer addresses. *)
Definition same_inserts (g0 g1 : gsparse cuckoo_params) : Prop :=
  gs_params g1 = gs_params g0 /\ forall key, first_value (gs_records g1) key = first_value (gs_records g0) key.

(** An exchange of cuckoo sparse PIR: arbitrary builder histories on both servers, SHA-256 functions,
    random choices, buffer addresses, SIMD targets and channels.  [K] and [V] are the keys and values
    in the buckets. *)
Record cuckoo_setup (clog : Z -> Z) (sha : bytes -> bytes) (rnd : nat -> nat) (ch : channel) (ops0 ops1 : list cop)
    (ak0 av0 ak1 av1 : alloc) (t0 t1 : target) (d0 d1 : cuckoo_db) (K V : list bytes) : Prop := {
  cu_sha : forall x, length (sha x) = 32%nat;
  cu_rnd : forall i, (rnd i < Z.to_nat (cp_functions (gs_params (gcrun ops0))))%nat;
  cu_alloc : alloc_ok ak0 /\ alloc_ok av0 /\ alloc_ok ak1 /\ alloc_ok av1;
  cu_channel : channel_ok ch;
  cu_records : Forall (fun kv => is_bytes (fst kv) /\ is_bytes (snd kv) /\
      (Z.of_nat (length (fst kv)) < 2147483648)%Z /\ (Z.of_nat (length (snd kv)) < 2147483648)%Z) (gs_records (gcrun ops0));
  cu_same : same_inserts (gcrun ops0) (gcrun ops1);
  cu_size0 : total_bytes (gs_records (gcrun ops0)) + 16 * Z.to_N (cp_buckets (gs_params (gcrun ops0))) < 2 ^ 62;
  cu_size1 : total_bytes (gs_records (gcrun ops1)) + 16 * Z.to_N (cp_buckets (gs_params (gcrun ops0))) < 2 ^ 62;
  cu_built0 : cuckoo_build sha rnd ak0 av0 (crun ops0) = Ok d0;
  cu_built1 : cuckoo_build sha rnd ak1 av1 (crun ops1) = Ok d1;
  cu_clog : clog_ok clog (cp_buckets (gs_params (gcrun ops0)));
  cu_targets : target_ok t0 /\ target_ok t1;
  cu_fits : dense_fits clog (cp_buckets (gs_params (gcrun ops0))) t0 /\ dense_fits clog (cp_buckets (gs_params (gcrun ops0))) t1;
  cu_keys : holds (cd_keys d0) K;
  cu_values : holds (cd_values d0) V;
  cu_some : Exists (fun v => v <> []) V
}.

Lemma cuckoo_end_to_end : forall aes F clog sha rnd ch ops0 ops1 ak0 av0 ak1 av1 t0 t1 d0 d1 K V queries seeds pad,
  let g := gcrun ops0 in let p := gs_params g in let kvs := gs_records g in
  cuckoo_setup clog sha rnd ch ops0 ops1 ak0 av0 ak1 av1 t0 t1 d0 d1 K V ->
  queries <> [] -> length pad = 16%nat ->
  cuckoo_exchange aes F clog sha ch p t0 t1 d0 d1 queries seeds pad = Ok (map (answer sha p K V) queries) /\
  (exists lost, contents sha g K V lost) /\
  forall q, Forall (fun j => (bucket sha (hf_seed (cp_hash p)) (cp_buckets p) q j < length K)%nat) (seq 0 (Z.to_nat (cp_functions p))).
Proof.
  intros aes F clog sha rnd ch ops0 ops1 ak0 av0 ak1 av1 t0 t1 d0 d1 K V queries seeds pad g p kvs
    [Hsha Hrnd (Hak0 & Hav0 & Hak1 & Hav1) Hch Hbytes [HSp HSv] Hsize0 Hsize1 HF0 HF1 HL [T0 T1] [F0 F1] HK HV Hex] Hne Hpad.
  rename HF0 into HB0.
  rename HF1 into HB1.
  pose proof (crun_sim ops0) as Hsim0. fold g in Hsim0. pose proof (crun_built _ _ _ _ _ _ HB0) as Hnb0. fold g in Hnb0.
  pose proof (crun_sim ops1) as Hsim1. pose proof (crun_built _ _ _ _ _ _ HB1) as Hnb1.
  set (g1 := gcrun ops1) in *. fold g in HSp, HSv, Hrnd, Hbytes, Hsize0, Hsize1, HL, F0, F1. fold p in Hrnd, Hsize0, Hsize1, HL, F0, F1.
  fold kvs in Hbytes, Hsize0.
  pose proof (build_params sha rnd ak0 av0 _ g Hsha Hsim0 Hnb0 d0 HB0) as HP0.
  pose proof (build_params sha rnd ak1 av1 _ g1 Hsha Hsim1 Hnb1 d1 HB1) as HP1.
  destruct (build_total sha rnd ak0 av0 _ g Hsha Hsim0 Hnb0 Hrnd Hak0 Hav0 HP0 Hsize0) as (d0' & c0 & FL0 & E0 & ST0 & HK0 & HV0 & Hs0 & Hb0).
  assert (Hrnd1 : forall i, (rnd i < Z.to_nat (cp_functions (gs_params g1)))%nat) by (rewrite HSp; exact Hrnd).
  assert (Hsize1' : total_bytes (gs_records g1) + 16 * Z.to_N (cp_buckets (gs_params g1)) < 2 ^ 62) by (rewrite HSp; exact Hsize1).
  destruct (build_total sha rnd ak1 av1 _ g1 Hsha Hsim1 Hnb1 Hrnd1 Hak1 Hav1 HP1 Hsize1') as (d1' & c1 & FL1 & E1 & ST1 & HK1 & HV1 & Hs1 & Hb1).
  rewrite HSp, (map_of_ext (gs_records g1) (gs_records g) HSv), FL0 in FL1. injection FL1 as <-.
  rewrite HB0 in E0. rewrite HB1 in E1. cbn [fst] in E0, E1. rewrite HSp in E1, Hb1. fold p in E0, E1, Hb0, Hb1.
  destruct (Z.eqb_spec (to_int32 (cp_buckets p)) (cp_buckets p)) as [Hn|]; [|discriminate].
  injection E0 as <-. injection E1 as <-.
  pose proof (holds_inj _ _ _ HK HK0) as EK. pose proof (holds_inj _ _ _ HV HV0) as EV.
  assert (EV1 : map (slot_value (gs_records g1)) (ck_table c0) = V).
  { rewrite EV. apply map_ext. intros [e|]; [|reflexivity]. cbn [slot_value]. rewrite HSv. reflexivity. }
  rewrite <- EK in HK1. rewrite EV1 in HV1.
  assert (HCT : contents sha g K V (ck_stash c0)).
  { rewrite EK, EV. apply stored_contents; [exact ST0|exact Hn|]. apply HP0. }
  assert (Hpos : (0 < cp_buckets p < 2147483648)%Z).
  { destruct HP0 as (Q & _). fold p in Q. rewrite Hn in Q. split; [exact Q|]. rewrite <- Hn. unfold to_int32. clear. lia. }
  destruct HP0 as (_ & _ & Pk & Ps & Pf & Pe & _). fold p in Pk, Ps, Pf.
  assert (HInb : forall e v, first_value kvs e = Some v -> is_bytes e /\ is_bytes v /\
             (Z.of_nat (length e) < 2147483648)%Z /\ (Z.of_nat (length v) < 2147483648)%Z).
  { intros e v H. apply first_value_in in H. exact (proj1 (Forall_forall _ _) Hbytes (e, v) H). }
  assert (HKf : forall i key, nth_error K i = Some key -> key <> [] -> exists v, first_value kvs key = Some v).
  { intros i key Hi Hkn. apply in_first_value. eapply Permutation_in; [symmetry; exact (ct_perm _ _ _ _ _ HCT)|]. apply in_app_iff. right.
    apply filter_In. split; [eapply nth_error_In, Hi|]. destruct key; [congruence|reflexivity]. }
  assert (HRV : records_ok V).
  { split; [|exact Hex]. apply Forall_forall. intros v Hv. apply In_nth_error in Hv. destruct Hv as [i Hi].
    assert (Hlt : (i < length K)%nat) by (rewrite <- (ct_values _ _ _ _ _ HCT); apply nth_error_Some; congruence).
    apply nth_error_Some in Hlt. destruct (nth_error K i) as [key|] eqn:Ek; [|congruence].
    destruct key as [|x key].
    - rewrite (ct_empty _ _ _ _ _ HCT i Ek) in Hi. injection Hi as <-. split; [constructor|reflexivity].
    - rewrite (ct_value _ _ _ _ _ HCT i _ Ek ltac:(discriminate)) in Hi. destruct (HInb _ _ Hi) as (_ & Q1 & _ & Q2). split; assumption. }
  assert (HRK : records_ok K).
  { split.
    - apply Forall_forall. intros key Hkey. apply In_nth_error in Hkey. destruct Hkey as [i Hi]. destruct key as [|x key].
      + split; [constructor|reflexivity].
      + destruct (HKf i _ Hi ltac:(discriminate)) as [v Hv]. destruct (HInb _ _ Hv) as (Q1 & _ & Q2 & _). split; assumption.
    - apply Exists_exists in Hex. destruct Hex as (v & Hv & Hvn). apply In_nth_error in Hv. destruct Hv as [i Hi].
      assert (Hlt : (i < length K)%nat) by (rewrite <- (ct_values _ _ _ _ _ HCT); apply nth_error_Some; intros C; discriminate (eq_trans (eq_sym Hi) C)).
      apply nth_error_Some in Hlt. destruct (nth_error K i) as [key|] eqn:Ek; [|congruence].
      apply Exists_exists. exists key. split; [eapply nth_error_In, Ek|]. intros ->. pose proof (eq_trans (eq_sym (ct_empty _ _ _ _ _ HCT i Ek)) Hi) as C. injection C as <-. apply Hvn. reflexivity. }
  assert (HlenK : Z.of_nat (length K) = cp_buckets p) by (apply HCT).
  assert (HlenV : Z.of_nat (length V) = cp_buckets p) by (rewrite (ct_values _ _ _ _ _ HCT); exact HlenK).
  split.
  - apply (cuckoo_round aes F clog sha p K V Hsha HlenK HlenV HRK HRV (proj2 Hpos) HL ltac:(lia) Ps Pf); try assumption.
    + rewrite Hb0. exact Hn.
    + rewrite Hb1. exact Hn.
  - split; [eauto|]. intros q. apply Forall_forall. intros j _.
    pose proof (function_value sha (hf_seed (cp_hash p)) q (cp_buckets p) j Hsha Hpos) as [_ HBd]. lia.
Qed.

(** A stored key is answered with its value padded with zeros, provided that the key is not all zeros
    and that no other stored key agrees with it up to trailing zeros. *)
Theorem C39_partial : forall aes F clog sha rnd ch ops0 ops1 ak0 av0 ak1 av1 t0 t1 d0 d1 K V queries seeds pad,
  cuckoo_setup clog sha rnd ch ops0 ops1 ak0 av0 ak1 av1 t0 t1 d0 d1 K V ->
  queries <> [] -> length pad = 16%nat ->
  exists answers, cuckoo_exchange aes F clog sha ch (gs_params (gcrun ops0)) t0 t1 d0 d1 queries seeds pad = Ok answers /\
    Forall2 (fun q a =>
      In q K -> stripped q <> [] -> (forall key, In key K -> stripped key = stripped q -> key = q) ->
      exists v, first_value (gs_records (gcrun ops0)) q = Some v /\ a = Some (zero_padded (longest V) v)) queries answers.
Proof.
  intros aes F clog sha rnd ch ops0 ops1 ak0 av0 ak1 av1 t0 t1 d0 d1 K V queries seeds pad HS Hne Hpad.
  destruct (cuckoo_end_to_end aes F clog sha rnd ch ops0 ops1 ak0 av0 ak1 av1 t0 t1 d0 d1 K V queries seeds pad HS Hne Hpad) as (HE & (lost & HC) & HB).
  eexists. split; [exact HE|]. clear HE HS Hne. induction queries as [|q queries IH]; [constructor|]. cbn [map]. constructor; [|exact IH].
  intros HIn Hz Hu. specialize (HB q). pose proof (answer_spec sha _ K V q HB) as HA.
  assert (Hq : q <> []) by (intros ->; apply Hz; reflexivity).
  assert (Hf : firstn (longest K) q = q) by (apply firstn_all2, longest_le, HIn). rewrite Hf in HA.
  destruct (In_nth_error _ _ HIn) as [i Hi]. destruct (ct_place _ _ _ _ _ HC i q Hi Hq) as (j & Hj & Ei).
  assert (Hv : exists v, first_value (gs_records (gcrun ops0)) q = Some v).
  { pose proof (ct_value _ _ _ _ _ HC i q Hi Hq) as Hv. destruct (first_value _ q) as [v|]; [eauto|]. exfalso.
    apply nth_error_None in Hv. rewrite (ct_values _ _ _ _ _ HC) in Hv. assert (nth_error K i <> None) as HX by congruence.
    apply nth_error_Some in HX. clear - HX Hv. lia. }
  destruct Hv as [v Hv]. exists v. split; [exact Hv|].
  destruct (answer sha (gs_params (gcrun ops0)) K V q) as [w|].
  - destruct HA as (j' & Hj' & Hlt & Es & ->). f_equal. set (i' := bucket _ _ _ q j') in *.
    assert (EK : nth i' K [] = q) by (apply Hu; [apply nth_In, Hlt|exact Es]).
    assert (EN : nth_error K i' = Some q) by (rewrite <- EK; apply nth_error_nth', Hlt).
    pose proof (ct_value _ _ _ _ _ HC i' q EN Hq) as HV. rewrite Hv in HV. f_equal. exact (nth_error_nth _ _ [] HV).
  - exfalso. apply (HA j Hj). rewrite <- Ei. f_equal. exact (nth_error_nth _ _ [] Hi).
Qed.
Print Assumptions C39_partial.

(** A query whose first [longest K] bytes agree with no stored key up to trailing zeros is answered
    with nullopt.  An empty bucket counts as the stored key []. *)
Theorem C40_partial : forall aes F clog sha rnd ch ops0 ops1 ak0 av0 ak1 av1 t0 t1 d0 d1 K V queries seeds pad,
  cuckoo_setup clog sha rnd ch ops0 ops1 ak0 av0 ak1 av1 t0 t1 d0 d1 K V ->
  queries <> [] -> length pad = 16%nat ->
  exists answers, cuckoo_exchange aes F clog sha ch (gs_params (gcrun ops0)) t0 t1 d0 d1 queries seeds pad = Ok answers /\
    Forall2 (fun q a => (forall key, In key K -> stripped key <> stripped (firstn (longest K) q)) -> a = None) queries answers.
Proof.
  intros aes F clog sha rnd ch ops0 ops1 ak0 av0 ak1 av1 t0 t1 d0 d1 K V queries seeds pad HS Hne Hpad.
  destruct (cuckoo_end_to_end aes F clog sha rnd ch ops0 ops1 ak0 av0 ak1 av1 t0 t1 d0 d1 K V queries seeds pad HS Hne Hpad) as (HE & _ & HB).
  eexists. split; [exact HE|]. clear HE HS Hne. induction queries as [|q queries IH]; [constructor|]. cbn [map]. constructor; [|exact IH].
  intros Hno. pose proof (answer_spec sha _ K V q (HB q)) as HA. destruct (answer _ _ K V q) as [w|]; [|reflexivity].
  destruct HA as (j & _ & Hlt & Es & _). exfalso. exact (Hno _ (nth_In _ _ Hlt) Es).
Qed.
Print Assumptions C40_partial.

(** When neither the keys nor the queries end in a zero byte and no query is empty or longer than the
    longest stored key, the answers are exactly the stored values. *)
Theorem C39_C40_text_partial : forall aes F clog sha rnd ch ops0 ops1 ak0 av0 ak1 av1 t0 t1 d0 d1 K V queries seeds pad,
  cuckoo_setup clog sha rnd ch ops0 ops1 ak0 av0 ak1 av1 t0 t1 d0 d1 K V ->
  queries <> [] -> length pad = 16%nat ->
  Forall (fun key => stripped key = key) K ->
  Forall (fun q => stripped q = q /\ q <> [] /\ (length q <= longest K)%nat) queries ->
  cuckoo_exchange aes F clog sha ch (gs_params (gcrun ops0)) t0 t1 d0 d1 queries seeds pad
  = Ok (map (fun q => if in_dec (list_eq_dec N.eq_dec) q K
                      then option_map (zero_padded (longest V)) (first_value (gs_records (gcrun ops0)) q)
                      else None) queries).
Proof.
  intros aes F clog sha rnd ch ops0 ops1 ak0 av0 ak1 av1 t0 t1 d0 d1 K V queries seeds pad HS Hne Hpad HK HQ.
  destruct (C39_partial aes F clog sha rnd ch ops0 ops1 ak0 av0 ak1 av1 t0 t1 d0 d1 K V queries seeds pad HS Hne Hpad) as (ans & HE & H39).
  destruct (C40_partial aes F clog sha rnd ch ops0 ops1 ak0 av0 ak1 av1 t0 t1 d0 d1 K V queries seeds pad HS Hne Hpad) as (ans' & HE' & H40).
  rewrite HE in HE'. injection HE' as <-. rewrite HE. f_equal. clear HE HS Hne. rewrite Forall_forall in HK.
  induction H39 as [|q a qs ans H1 H39 IH]; [reflexivity|]. inversion H40 as [|? ? ? ? H2 H40']; subst. fcons HQ Hq HQ.
  cbn [map]. rewrite <- (IH HQ H40'). f_equal. destruct Hq as (Q1 & Q2 & Q3). destruct (in_dec (list_eq_dec N.eq_dec) q K) as [Hin|Hin].
  - destruct H1 as (v & -> & ->); [exact Hin|rewrite Q1; exact Q2| |reflexivity].
    intros key Hkey E. rewrite (HK key Hkey), Q1 in E. exact E.
  - apply H2. intros key Hkey E. rewrite (HK key Hkey), firstn_all2, Q1 in E by exact Q3. subst key. contradiction.
Qed.
Print Assumptions C39_C40_text_partial.

(** The channel of the examples, and a target for each server. *)
Definition xq_channel : channel :=
  {| ch_ser := ch_serialize; ch_par := ch_parse; ch_enc := ch_encrypt; ch_dec := ch_decrypt; ch_context := [3; 1; 4] |}.
Lemma xq_channel_ok : channel_ok xq_channel.
Proof. split; [exact ch_round_trip|]. intros m. apply ch_cipher. Qed.
Lemma xp_scalar_ok : target_ok xp_scalar.
Proof. repeat split; intros; cbn; lia. Qed.

(** Two histories with the same pairs, in different orders. *)
Definition xq_ops1 : list cop :=
  [CInsert ([101; 1; 3], [6; 6]); CInsert ([99], [4]); CInsert ([97; 98], [1; 2; 3]); CInsert ([99], [9; 9; 9; 9]); CSetParams (xq_params 4); CClone].
Definition xq_db1 : res cuckoo_db := Eval vm_compute in cuckoo_build xq_sha xq_rnd xa_alloc xa_alloc (crun xq_ops1).

Lemma xq_setup_of : forall n ops0 ops1 d0 d1 K V,
  gs_params (gcrun ops0) = xq_params n -> (0 < n < 1000)%Z ->
  Forall (fun kv => is_bytes (fst kv) /\ is_bytes (snd kv) /\
      (Z.of_nat (length (fst kv)) < 2147483648)%Z /\ (Z.of_nat (length (snd kv)) < 2147483648)%Z) (gs_records (gcrun ops0)) ->
  same_inserts (gcrun ops0) (gcrun ops1) ->
  total_bytes (gs_records (gcrun ops0)) < 1000 -> total_bytes (gs_records (gcrun ops1)) < 1000 ->
  cuckoo_build xq_sha xq_rnd xa_alloc xa_alloc (crun ops0) = Ok d0 ->
  cuckoo_build xq_sha xq_rnd xa_alloc xa_alloc (crun ops1) = Ok d1 ->
  holds (cd_keys d0) K -> holds (cd_values d0) V -> Exists (fun v => v <> []) V ->
  cuckoo_setup xp_clog xq_sha xq_rnd xq_channel ops0 ops1 xa_alloc xa_alloc xa_alloc xa_alloc xt_t xp_scalar d0 d1 K V.
Proof.
  intros n ops0 ops1 d0 d1 K V HP Hn HR HS H0 H1 B0 B1 HK HV HE.
  assert (HC : (xp_clog n <= 24)%Z).
  { unfold xp_clog. apply Z.le_trans with (Z.log2_up 1000); [apply Z.log2_up_le_mono; lia|vm_compute; discriminate]. }
  assert (H62 : 2 ^ 62 = 4611686018427387904) by reflexivity.
  constructor; try assumption; rewrite ?HP; cbn [xq_params cp_buckets cp_functions].
  - exact xq_sha_ok.
  - exact xq_rnd_ok.
  - repeat split; exact xa_alloc_ok.
  - exact xq_channel_ok.
  - lia.
  - lia.
  - apply xp_clog_ok. lia.
  - split; [exact xt_t_ok|exact xp_scalar_ok].
  - split; (split; [|right]; lia).
Qed.
Ltac solve_records := repeat constructor; cbn; lia.
Ltac solve_holds := split; [eexists; split; vm_compute; reflexivity|split; vm_compute; reflexivity].
Example C39_C40_nonvacuous :
  match xq_db, xq_db1 with
  | Ok d0, Ok d1 =>
      cuckoo_setup xp_clog xq_sha xq_rnd xq_channel xq_ops xq_ops1 xa_alloc xa_alloc xa_alloc xa_alloc xt_t xp_scalar d0 d1 xq_K xq_V /\
      Forall (fun key => stripped key = key) xq_K /\
      Forall (fun q => stripped q = q /\ q <> [] /\ (length q <= longest xq_K)%nat) [[99]; [98]; [97; 98]]
  | _, _ => False
  end.
Proof.
  unfold xq_db, xq_db1. split; [|split].
  - apply (xq_setup_of 4); [reflexivity|split; reflexivity|solve_records| |reflexivity|reflexivity|vm_compute; reflexivity|vm_compute; reflexivity|solve_holds|solve_holds|].
    + split; [reflexivity|]. intros key. unfold gcrun, xq_ops, xq_ops1. cbn [fold_left gcstep gs_params gs_records app].
      unfold first_value. cbn [find fst]. unfold key_eqb.
      repeat match goal with |- context [list_eq_dec N.eq_dec ?a key] => destruct (list_eq_dec N.eq_dec a key); subst end; try reflexivity; try discriminate.
    + apply Exists_exists. exists [4]. split; [cbn; tauto|discriminate].
  - repeat constructor.
  - repeat constructor; try discriminate; cbn; lia.
Qed.
(** The exchange computed. *)
Example C39_C40_computed :
  match xq_db, xq_db1 with
  | Ok d0, Ok d1 =>
      cuckoo_exchange ex_aes ex_F xp_clog xq_sha xq_channel (xq_params 4) xt_t xp_scalar d0 d1 [[99]; [98]; [97; 98]] xp_seeds xp_seed
      = Ok [Some [4; 0; 0]; None; Some [1; 2; 3]]
  | _, _ => False
  end.
Proof. vm_compute. reflexivity. Qed.

(** Two keys that differ in a trailing zero byte: the query for the second returns the value of the
    first.  A database whose values are all empty rejects every query. *)
Definition xq_zero : list cop := [CSetParams (xq_params 3); CInsert ([97], [5]); CInsert ([97; 0], [6])].
Definition xq_none : list cop := [CSetParams (xq_params 3); CInsert ([97], [])].
Definition xq_zero_db : res cuckoo_db := Eval vm_compute in cuckoo_build xq_sha xq_rnd xa_alloc xa_alloc (crun xq_zero).
Theorem C39_refuted : exists clog sha rnd ch ops al t0 t1 d K V q v,
  cuckoo_setup clog sha rnd ch ops ops al al al al t0 t1 d d K V /\
  In q K /\ first_value (gs_records (gcrun ops)) q = Some v /\
  forall aes F seeds pad, length pad = 16%nat ->
    exists w, cuckoo_exchange aes F clog sha ch (gs_params (gcrun ops)) t0 t1 d d [q] seeds pad = Ok [Some w] /\
      w <> zero_padded (longest V) v.
Proof.
  assert (HS : match xq_zero_db with Ok d =>
    cuckoo_setup xp_clog xq_sha xq_rnd xq_channel xq_zero xq_zero xa_alloc xa_alloc xa_alloc xa_alloc xt_t xp_scalar d d
      [[97; 0]; []; [97]] [[6]; []; [5]] | _ => False end).
  { unfold xq_zero_db. apply (xq_setup_of 3); [reflexivity|split; reflexivity|solve_records|split; reflexivity|reflexivity|reflexivity|vm_compute; reflexivity|vm_compute; reflexivity|solve_holds|solve_holds|].
    apply Exists_exists. exists [6]. split; [cbn; tauto|discriminate]. }
  destruct xq_zero_db as [d| | |]; try contradiction.
  exists xp_clog, xq_sha, xq_rnd, xq_channel, xq_zero, xa_alloc, xt_t, xp_scalar, d, [[97; 0]; []; [97]], [[6]; []; [5]], [97; 0], [6].
  split; [exact HS|]. split; [left; reflexivity|]. split; [vm_compute; reflexivity|]. intros aes F seeds pad Hpad.
  destruct (cuckoo_end_to_end aes F _ _ _ _ _ _ _ _ _ _ _ _ _ _ _ _ [[97; 0]] seeds pad HS ltac:(discriminate) Hpad) as (HE & _).
  exists [5]. split; [refine (eq_trans HE _); vm_compute; reflexivity|vm_compute; discriminate].
Qed.
Print Assumptions C39_refuted.
Theorem C39_empty_values_refuted : exists ops q d0, gs_built (gcrun ops) = false /\
  cuckoo_build xq_sha xq_rnd xa_alloc xa_alloc (crun ops) = Ok d0 /\
  first_value (gs_records (gcrun ops)) q = Some [] /\ (exists K, holds (cd_keys d0) K /\ In q K) /\
  cuckoo_exchange ex_aes ex_F xp_clog xq_sha xq_channel (gs_params (gcrun ops)) xt_t xt_t d0 d0 [q] xp_seeds xp_seed = Err INVALID_ARGUMENT.
Proof.
  exists xq_none, [97]. eexists. split; [reflexivity|]. split; [vm_compute; reflexivity|]. split; [vm_compute; reflexivity|].
  split; [exists [[]; []; [97]]; split; [solve_holds|cbn; tauto]|]. vm_compute. reflexivity.
Qed.
Print Assumptions C39_empty_values_refuted.

(** An absent key that extends the longest stored key, or that is all zeros, is answered with a
    value. *)
Theorem C40_refuted : exists clog sha rnd ch ops al t0 t1 d K V queries,
  cuckoo_setup clog sha rnd ch ops ops al al al al t0 t1 d d K V /\
  Forall (fun q => first_value (gs_records (gcrun ops)) q = None) queries /\ length queries = 3%nat /\
  forall aes F seeds pad, length pad = 16%nat ->
    exists answers, cuckoo_exchange aes F clog sha ch (gs_params (gcrun ops)) t0 t1 d d queries seeds pad = Ok answers /\
      Forall (fun a => a <> None) answers.
Proof.
  assert (HS : match xq_zero_db with Ok d =>
    cuckoo_setup xp_clog xq_sha xq_rnd xq_channel xq_zero xq_zero xa_alloc xa_alloc xa_alloc xa_alloc xt_t xp_scalar d d
      [[97; 0]; []; [97]] [[6]; []; [5]] | _ => False end).
  { unfold xq_zero_db. apply (xq_setup_of 3); [reflexivity|split; reflexivity|solve_records|split; reflexivity|reflexivity|reflexivity|vm_compute; reflexivity|vm_compute; reflexivity|solve_holds|solve_holds|].
    apply Exists_exists. exists [6]. split; [cbn; tauto|discriminate]. }
  destruct xq_zero_db as [d| | |]; try contradiction.
  exists xp_clog, xq_sha, xq_rnd, xq_channel, xq_zero, xa_alloc, xt_t, xp_scalar, d, [[97; 0]; []; [97]], [[6]; []; [5]], [[97; 0; 3]; [0]; []].
  split; [exact HS|]. split; [repeat constructor|]. split; [reflexivity|]. intros aes F seeds pad Hpad.
  destruct (cuckoo_end_to_end aes F _ _ _ _ _ _ _ _ _ _ _ _ _ _ _ _ [[97; 0; 3]; [0]; []] seeds pad HS ltac:(discriminate) Hpad) as (HE & _).
  eexists. split; [exact HE|]. vm_compute. repeat constructor; discriminate.
Qed.
Print Assumptions C40_refuted.

(** ** C41: simple hashed sparse PIR end to end *)

(** The serialized bucket [i] of the pairs [kvs]; its size is limited to 2^31 - 1 bytes. *)
Definition bucket_size (sha : bytes -> bytes) (p : simple_params) (kvs : list (bytes * bytes)) (i : nat) : N :=
  let l := filter (fun kv => Nat.eqb (bucket sha (hf_seed (sp_hash p)) (sp_buckets p) (fst kv) 0) i) kvs in
  N.of_nat (length (serialize_bucket (map fst l, map snd l))).

(** For all histories, SHA-256 functions, bucket loads, buffer addresses, targets and channels: the
    answers are exactly the values first inserted.  Both servers insert the same pairs in the same
    order.  Not covered: databases without a record (refuted below) or beyond the size limits of dense
    PIR. *)
Theorem C41_partial : forall aes F clog sha ch ops0 ops1 a0 a1 d0 d1 t0 t1 queries seeds pad,
  let g := gsrun ops0 in let p := gs_params g in let kvs := gs_records g in
  (forall x, length (sha x) = 32%nat) -> alloc_ok a0 -> alloc_ok a1 -> channel_ok ch ->
  Forall (fun kv => is_bytes (fst kv) /\ is_bytes (snd kv)) kvs -> kvs <> [] ->
  gs_params (gsrun ops1) = p -> gs_records (gsrun ops1) = kvs ->
  simple_build sha a0 (srun ops0) = Ok d0 -> simple_build sha a1 (srun ops1) = Ok d1 ->
  (0 < sp_buckets p < 2147483648)%Z -> clog_ok clog (sp_buckets p) -> target_ok t0 -> target_ok t1 ->
  dense_fits clog (sp_buckets p) t0 -> dense_fits clog (sp_buckets p) t1 ->
  queries <> [] -> length pad = 16%nat ->
  simple_exchange aes F clog sha ch p t0 t1 d0 d1 queries seeds pad = Ok (map (first_value kvs) queries).
Proof.
  intros aes F clog sha ch ops0 ops1 a0 a1 d0 d1 t0 t1 queries seeds pad g p kvs Hsha Ha0 Ha1 Hch Hb Hne HSp HSr HB0 HB1 Hlt HL T0 T1 F0 F1 Hq Hpad.
  pose proof (srun_sim ops0) as Hsim0. fold g in Hsim0. pose proof (srun_sim ops1) as Hsim1.
  assert (Hnb : forall a ops d, simple_build sha a (srun ops) = Ok d -> gs_built (gsrun ops) = false).
  { clear. intros a ops d H. destruct (gs_built (gsrun ops)) eqn:E; [|reflexivity]. unfold simple_build in H.
    rewrite (ss_b _ _ (srun_sim ops)), E in H. discriminate. }
  pose proof (Hnb _ _ _ HB0) as Hnb0. pose proof (Hnb _ _ _ HB1) as Hnb1. clear Hnb. fold g in Hnb0.
  rename HB0 into E0.
  rename HB1 into E1.
  destruct (simple_build_params sha a0 _ g Hsha Hsim0 Hnb0 d0 E0) as [P0 S0].
  destruct (simple_build_params sha a1 _ _ Hsha Hsim1 Hnb1 d1 E1) as [P1 S1].
  destruct (simple_build_total sha a0 _ g Hsha Hsim0 Hnb0 Ha0 P0 S0) as (d0' & E0' & HH0 & HB0 & _).
  destruct (simple_build_total sha a1 _ _ Hsha Hsim1 Hnb1 Ha1 P1 S1) as (d1' & E1' & HH1 & HB1 & _).
  rewrite E0 in E0'. rewrite E1 in E1'. cbn [fst] in E0', E1'. injection E0' as <-. injection E1' as <-.
  unfold simple_records in HH1, S1. rewrite HSp, HSr in HH1. rewrite HSp in HB1. unfold simple_records in HH0, S0. fold p kvs in HH0, S0. fold p in HB0, HH1.
  destruct P0 as (Pn & Ps & Pf & _). fold p in Pn, Ps, Pf.
  assert (Hn : to_int32 (sp_buckets p) = sp_buckets p) by (apply to_int32_id; lia).
  rewrite Hn in *.
  apply (simple_round aes F clog sha p kvs Hsha Hlt HL Ps Pf Hb Hne S0); assumption.
Qed.
Print Assumptions C41_partial.

(** The builds succeed with valid parameters and buckets of fewer than 2^31 bytes. *)
Theorem C41_build_succeeds : forall sha a ops,
  let g := gsrun ops in let p := gs_params g in let kvs := gs_records g in
  (forall x, length (sha x) = 32%nat) -> alloc_ok a -> gs_built g = false ->
  (0 < sp_buckets p < 2147483648)%Z -> hf_seed (sp_hash p) <> [] -> hf_family (sp_hash p) = 1%Z ->
  Forall (fun kv => fst kv <> []) kvs ->
  (forall i, (i < Z.to_nat (sp_buckets p))%nat -> bucket_size sha p kvs i < 2 ^ 31) ->
  exists d, simple_build sha a (srun ops) = Ok d.
Proof.
  intros sha a ops g p kvs Hsha Ha Hnb Hn Hs Hf He Hsz.
  assert (Hn' : to_int32 (sp_buckets p) = sp_buckets p) by (apply to_int32_id; lia).
  destruct (simple_build_total sha a _ g Hsha (srun_sim ops) Hnb Ha) as (d & E & _).
  - unfold simple_params_ok. fold p. rewrite Hn'. repeat split; try assumption. lia.
  - unfold simple_records. fold p kvs. rewrite Hn', Forall_map. apply Forall_forall. intros i Hi. apply in_seq in Hi. apply Hsz. lia.
  - exists d. exact E.
Qed.
Print Assumptions C41_build_succeeds.

Definition xr_params : simple_params := {| sp_hash := {| hf_family := 1; hf_seed := [1] |}; sp_buckets := 3 |}.
Definition xr_ops : list sop :=
  [SSetParams xr_params; SInsert ([97], [5; 0; 0]); SInsert ([97; 0], []); SInsert ([98], [7]); SInsert ([97], [8]); SInsert ([0], [1])].
Definition xr_db : res simple_db := Eval vm_compute in simple_build xq_sha xa_alloc (srun xr_ops).
Example C41_nonvacuous :
  match xr_db with Ok d => simple_build xq_sha xa_alloc (srun xr_ops) = Ok d | _ => False end /\
  gs_params (gsrun xr_ops) = xr_params /\ length (gs_records (gsrun xr_ops)) = 5%nat /\
  Forall (fun kv => is_bytes (fst kv) /\ is_bytes (snd kv)) (gs_records (gsrun xr_ops)) /\
  clog_ok xp_clog 3 /\ dense_fits xp_clog 3 xt_t /\ dense_fits xp_clog 3 xp_scalar.
Proof.
  split; [vm_compute; reflexivity|]. split; [reflexivity|]. split; [reflexivity|]. split; [repeat constructor|].
  split; [apply xp_clog_ok; reflexivity|]. split; (split; [reflexivity|right; vm_compute; discriminate]).
Qed.
Example C41_computed :
  match xr_db with
  | Ok d => simple_exchange ex_aes ex_F xp_clog xq_sha xq_channel xr_params xt_t xp_scalar d d [[97]; [97; 0]; [97; 0; 0]; []; [0]; [98]] xp_seeds xp_seed
            = Ok [Some [5; 0; 0]; Some []; None; None; Some [1]; Some [7]]
  | _ => False
  end.
Proof. vm_compute. reflexivity. Qed.

(** A database without records is built and served, but every query fails. *)
Theorem C41_refuted : exists ops d, gs_records (gsrun ops) = [] /\
  simple_build xq_sha xa_alloc (srun ops) = Ok d /\
  (exists s, simple_create_plain xq_sha ex_F xp_clog (gs_params (gsrun ops)) (Some d) = Ok s) /\
  simple_exchange ex_aes ex_F xp_clog xq_sha xq_channel (gs_params (gsrun ops)) xt_t xt_t d d [[97]] xp_seeds xp_seed = Err INVALID_ARGUMENT.
Proof.
  exists [SSetParams xr_params]. eexists. split; [reflexivity|]. split; [vm_compute; reflexivity|].
  split; [eexists; vm_compute; reflexivity|]. vm_compute. reflexivity.
Qed.
Print Assumptions C41_refuted.

(** ** C45: fingerprints *)

(** The fingerprint of a hash seed: its SHA-256 digest as a little-endian number, modulo 2^31 - 1. *)
Definition seed_fingerprint (sha : bytes -> bytes) (seed : bytes) : N := le_decode (sha seed) mod 2147483647.

Lemma fingerprint_eq : forall sha seed fp, (forall x, length (sha x) = 32%nat) -> fingerprint sha seed = Ok fp ->
  to_uint32 fp = seed_fingerprint sha seed.
Proof.
  intros sha seed fp Hs H. unfold fingerprint in H. rewrite sha256_value in H by (auto; lia). injection H as <-. cbn [app].
  unfold seed_fingerprint, to_uint32. lia.
Qed.
Lemma selections_reject : forall aes d fp q, pq_fingerprint q <> 0 -> pq_fingerprint q <> to_uint32 fp ->
  sparse_selections aes d fp (RqPlain q) = Err INVALID_ARGUMENT.
Proof.
  intros aes d fp q H0 H1. unfold sparse_selections. apply N.eqb_neq in H0, H1. rewrite H0, H1.
  destruct (Nat.eqb (length (pq_keys q)) 0); reflexivity.
Qed.
Lemma selections_accept : forall aes d fp keys, sparse_selections aes d fp (RqPlain {| pq_keys := keys; pq_fingerprint := to_uint32 fp |})
  = sparse_selections aes d fp (RqPlain {| pq_keys := keys; pq_fingerprint := 0 |}).
Proof.
  intros aes d fp keys. unfold sparse_selections. cbn [pq_keys pq_fingerprint]. rewrite !N.eqb_refl. cbn [negb andb].
  rewrite andb_false_r. reflexivity.
Qed.
Lemma cuckoo_server_fingerprint : forall F clog sha p db s, (forall x, length (sha x) = 32%nat) ->
  cuckoo_create_plain sha F clog p db = Ok s -> to_uint32 (cs_fingerprint s) = seed_fingerprint sha (hf_seed (cp_hash p)).
Proof.
  intros F clog sha p db s Hs H. unfold cuckoo_create_plain in H. do 7 bind_inv H. injection H as <-. cbn [cs_fingerprint].
  eapply fingerprint_eq; eassumption.
Qed.
Lemma simple_server_fingerprint : forall F clog sha p db s, (forall x, length (sha x) = 32%nat) ->
  simple_create_plain sha F clog p db = Ok s -> to_uint32 (ss_fingerprint s) = seed_fingerprint sha (hf_seed (sp_hash p)).
Proof.
  intros F clog sha p db s Hs H. unfold simple_create_plain in H. do 6 bind_inv H. injection H as <-. cbn [ss_fingerprint].
  eapply fingerprint_eq; eassumption.
Qed.

(** A request with a fingerprint that is neither zero nor that of the server's seed is rejected. *)
Theorem C45_rejects : forall aes F clog sha t q, (forall x, length (sha x) = 32%nat) -> pq_fingerprint q <> 0 ->
  (forall p db s, cuckoo_create_plain sha F clog p db = Ok s -> pq_fingerprint q <> seed_fingerprint sha (hf_seed (cp_hash p)) ->
     cuckoo_handle_plain aes t s (RqPlain q) = Err INVALID_ARGUMENT) /\
  (forall p db s, simple_create_plain sha F clog p db = Ok s -> pq_fingerprint q <> seed_fingerprint sha (hf_seed (sp_hash p)) ->
     simple_handle_plain aes t s (RqPlain q) = Err INVALID_ARGUMENT).
Proof.
  intros aes F clog sha t q Hs H0. split; intros p db s H H1.
  - unfold cuckoo_handle_plain. rewrite selections_reject; [reflexivity|exact H0|].
    rewrite (cuckoo_server_fingerprint _ _ _ _ _ _ Hs H). exact H1.
  - unfold simple_handle_plain. rewrite selections_reject; [reflexivity|exact H0|].
    rewrite (simple_server_fingerprint _ _ _ _ _ _ Hs H). exact H1.
Qed.
Print Assumptions C45_rejects.

(** Both requests of a client carry the fingerprint of the seed of its parameters, and a server with
    the same seed handles them as if they carried no fingerprint. *)
Definition unmarked (q : plain_request) : plain_request := {| pq_keys := pq_keys q; pq_fingerprint := 0 |}.
Theorem C45_accepts_cuckoo : forall aes F clog sha t p p' db s c queries seeds pad q0 h state, (forall x, length (sha x) = 32%nat) ->
  cuckoo_client_create sha F clog (PpCuckoo p) true = Ok c ->
  cuckoo_create_plain sha F clog p' db = Ok s -> hf_seed (cp_hash p') = hf_seed (cp_hash p) ->
  cuckoo_create_plain_requests aes c queries seeds pad = Ok (q0, h, state) ->
  exists q1, hq_plain h = Some q1 /\
    pq_fingerprint q0 = seed_fingerprint sha (hf_seed (cp_hash p)) /\ pq_fingerprint q1 = seed_fingerprint sha (hf_seed (cp_hash p)) /\
    cuckoo_handle_plain aes t s (RqPlain q0) = cuckoo_handle_plain aes t s (RqPlain (unmarked q0)) /\
    cuckoo_handle_plain aes t s (RqPlain q1) = cuckoo_handle_plain aes t s (RqPlain (unmarked q1)).
Proof.
  intros aes F clog sha t p p' db s c queries seeds pad q0 h state Hs HC HSv Hseed HQ.
  unfold cuckoo_client_create in HC. do 7 bind_inv HC. injection HC as <-.
  unfold cuckoo_create_plain_requests in HQ. bind_inv HQ. bind_inv HQ. cbn [cc_fingerprint cc_dense] in HQ. destruct a7 as [[l hh] st].
  unfold add_fingerprint in HQ. injection HQ as <- <- <-. cbn [hq_plain]. eexists. split; [reflexivity|].
  cbn [with_fingerprint pq_fingerprint].
  match goal with H : fingerprint sha _ = Ok ?fp |- _ => pose proof (fingerprint_eq _ _ _ Hs H) as HF; set (f := fp) in * end.
  split; [exact HF|]. split; [exact HF|].
  assert (HA : forall keys, cuckoo_handle_plain aes t s (RqPlain {| pq_keys := keys; pq_fingerprint := to_uint32 f |})
             = cuckoo_handle_plain aes t s (RqPlain {| pq_keys := keys; pq_fingerprint := 0 |})).
  { intros keys. unfold cuckoo_handle_plain. rewrite HF, <- Hseed, <- (cuckoo_server_fingerprint _ _ _ _ _ _ Hs HSv), selections_accept. reflexivity. }
  split; apply HA.
Qed.
Print Assumptions C45_accepts_cuckoo.
Theorem C45_accepts_simple : forall aes F clog sha t p p' db s c queries seeds pad q0 h state, (forall x, length (sha x) = 32%nat) ->
  simple_client_create sha F clog (PpSimple p) true = Ok c ->
  simple_create_plain sha F clog p' db = Ok s -> hf_seed (sp_hash p') = hf_seed (sp_hash p) ->
  simple_create_plain_requests aes c queries seeds pad = Ok (q0, h, state) ->
  exists q1, hq_plain h = Some q1 /\
    pq_fingerprint q0 = seed_fingerprint sha (hf_seed (sp_hash p)) /\ pq_fingerprint q1 = seed_fingerprint sha (hf_seed (sp_hash p)) /\
    simple_handle_plain aes t s (RqPlain q0) = simple_handle_plain aes t s (RqPlain (unmarked q0)) /\
    simple_handle_plain aes t s (RqPlain q1) = simple_handle_plain aes t s (RqPlain (unmarked q1)).
Proof.
  intros aes F clog sha t p p' db s c queries seeds pad q0 h state Hs HC HSv Hseed HQ.
  unfold simple_client_create in HC. do 7 bind_inv HC. injection HC as <-.
  unfold simple_create_plain_requests in HQ. bind_inv HQ. bind_inv HQ. cbn [sc_fingerprint sc_dense] in HQ. destruct a7 as [[l hh] st].
  unfold add_fingerprint in HQ. injection HQ as <- <- <-. cbn [hq_plain]. eexists. split; [reflexivity|].
  cbn [with_fingerprint pq_fingerprint].
  match goal with H : fingerprint sha _ = Ok ?fp |- _ => pose proof (fingerprint_eq _ _ _ Hs H) as HF; set (f := fp) in * end.
  split; [exact HF|]. split; [exact HF|].
  assert (HA : forall keys, simple_handle_plain aes t s (RqPlain {| pq_keys := keys; pq_fingerprint := to_uint32 f |})
             = simple_handle_plain aes t s (RqPlain {| pq_keys := keys; pq_fingerprint := 0 |})).
  { intros keys. unfold simple_handle_plain. rewrite HF, <- Hseed, <- (simple_server_fingerprint _ _ _ _ _ _ Hs HSv), selections_accept. reflexivity. }
  split; apply HA.
Qed.
Print Assumptions C45_accepts_simple.

(** A client with seed 2 and servers with seed 1. *)
Definition xr_other : simple_params := {| sp_hash := {| hf_family := 1; hf_seed := [2] |}; sp_buckets := 3 |}.
Definition xr_request (p : simple_params) : res plain_request :=
  c <- simple_client_create xq_sha ex_F xp_clog (PpSimple p) true ;;
  '(q, _, _) <- simple_create_plain_requests ex_aes c [[97]] xp_seeds xp_seed ;; Ok q.
Example C45_nonvacuous :
  match xr_db with
  | Ok d =>
      match simple_create_plain xq_sha ex_F xp_clog xr_params (Some d), xr_request xr_params, xr_request xr_other with
      | Ok s, Ok q, Ok other =>
          pq_fingerprint q = 1 /\ pq_fingerprint other = 2 /\ seed_fingerprint xq_sha [1] = 1 /\
          match simple_handle_plain ex_aes xt_t s (RqPlain q) with Ok _ => True | _ => False end /\
          simple_handle_plain ex_aes xt_t s (RqPlain other) = Err INVALID_ARGUMENT
      | _, _, _ => False
      end
  | _ => False
  end.
Proof. vm_compute. repeat split. Qed.
