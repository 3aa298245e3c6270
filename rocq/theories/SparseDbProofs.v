(** Proofs about the hashed databases. *)
From Coq Require Import List NArith ZArith Lia Bool Permutation Sorted ZifyBool ZifyNat ZifyN.
From Verif Require Import Base ListUtil PirDbModel PirSpec PirBuildProofs PirProtoSpec HashModel HashSpec HashProofs SparseModel SparseSpec.
Import ListNotations.
Open Scope N_scope.
Ltac Zify.zify_post_hook ::= Z.div_mod_to_equations.

(** * Strings and maps *)

Lemma compare_eq : forall a b, compare_bytes a b = Eq <-> a = b.
Proof.
  induction a as [|x a IH]; intros [|y b]; cbn [compare_bytes]; try (split; congruence).
  destruct (N.compare_spec x y) as [->|H|H].
  - rewrite IH. split; congruence.
  - split; [discriminate|]. intros E. inversion E. subst. lia.
  - split; [discriminate|]. intros E. inversion E. subst. lia.
Qed.
Lemma compare_refl : forall a, compare_bytes a a = Eq.
Proof. intros. apply compare_eq. reflexivity. Qed.
Lemma compare_gt : forall a b, compare_bytes a b = Gt -> compare_bytes b a = Lt.
Proof.
  induction a as [|x a IH]; intros [|y b]; cbn [compare_bytes]; try congruence.
  rewrite (N.compare_antisym x y). destruct (x ?= y); cbn [CompOpp]; auto; discriminate.
Qed.
Lemma compare_trans : forall a b c, compare_bytes a b = Lt -> compare_bytes b c = Lt -> compare_bytes a c = Lt.
Proof.
  induction a as [|x a IH]; intros [|y b] [|z c]; cbn [compare_bytes]; try congruence.
  destruct (N.compare_spec x y) as [->|H|H]; [|intros _|discriminate].
  - destruct (N.compare_spec y z); eauto.
  - destruct (N.compare_spec y z) as [->|H2|H2]; [|intros _|discriminate].
    + destruct (N.compare_spec x z); auto; lia.
    + destruct (N.compare_spec x z); auto; lia.
Qed.

Lemma key_eqb_spec : forall a b, reflect (a = b) (key_eqb a b).
Proof. intros a b. unfold key_eqb. destruct (list_eq_dec N.eq_dec a b); constructor; assumption. Qed.
Lemma key_eqb_refl : forall a, key_eqb a a = true.
Proof. intros a. destruct (key_eqb_spec a a); congruence. Qed.

Lemma first_value_cons : forall k v kvs q, first_value ((k, v) :: kvs) q = if key_eqb k q then Some v else first_value kvs q.
Proof. intros. unfold first_value. cbn [find fst]. destruct (key_eqb k q); reflexivity. Qed.
Lemma first_value_app : forall a b q, first_value (a ++ b) q = match first_value a q with Some v => Some v | None => first_value b q end.
Proof.
  induction a as [|[k v] a IH]; intros b q; [reflexivity|]. cbn [app]. rewrite !first_value_cons.
  destruct (key_eqb k q); [reflexivity|apply IH].
Qed.
Lemma first_value_none : forall kvs q, first_value kvs q = None <-> ~ In q (map fst kvs).
Proof.
  induction kvs as [|[k v] kvs IH]; intros q; [split; auto|]. rewrite first_value_cons. cbn [map fst In].
  destruct (key_eqb_spec k q); [split; [discriminate|tauto]|]. rewrite IH. tauto.
Qed.
Lemma first_value_in : forall kvs q v, first_value kvs q = Some v -> In (q, v) kvs.
Proof.
  induction kvs as [|[k w] kvs IH]; intros q v H; [discriminate|]. rewrite first_value_cons in H.
  destruct (key_eqb_spec k q); [left; congruence|right; auto].
Qed.
Lemma first_value_nodup : forall m, NoDup (map fst m) -> forall k v, In (k, v) m <-> first_value m k = Some v.
Proof.
  induction m as [|[k0 v0] m IH]; intros HN k v; [split; [intros []|discriminate]|]. inversion HN as [|? ? H1 H2]; subst.
  rewrite first_value_cons. cbn [In]. destruct (key_eqb_spec k0 k) as [->|Hne].
  - split; [|intros E; left; congruence]. intros [E|E]; [congruence|].
    exfalso. apply H1. apply in_map_iff. exists (k, v). auto.
  - rewrite <- IH by assumption. split; [intros [E|E]; [congruence|assumption]|auto].
Qed.

Definition before (a b : bytes * bytes) : Prop := compare_bytes (fst a) (fst b) = Lt.
Lemma before_irrefl : forall a, ~ before a a.
Proof. intros a H. unfold before in H. rewrite compare_refl in H. discriminate. Qed.
Lemma before_trans : forall a b c, before a b -> before b c -> before a c.
Proof. intros a b c H1 H2. unfold before in *. eapply compare_trans; eauto. Qed.
Lemma map_insert_in : forall m kv x, StronglySorted before m ->
  In x (map_insert m kv) <-> In x m \/ (x = kv /\ ~ In (fst kv) (map fst m)).
Proof.
  induction m as [|[k v] m IH]; intros kv x HS; cbn [map_insert].
  - cbn. split; [intros [->|[]]; auto|intros [[]|[-> _]]; auto].
  - inversion HS as [|? ? S1 S2]; subst. destruct (compare_bytes (fst kv) k) eqn:E.
    + apply compare_eq in E. split; [auto|]. intros [H|[_ H]]; [assumption|]. exfalso. apply H. left. symmetry. exact E.
    + cbn [In]. split.
      * intros [->|[H|H]]; auto. right. split; [reflexivity|]. cbn [map fst]. intros [H|H].
        { subst k. rewrite compare_refl in E. discriminate. }
        apply in_map_iff in H. destruct H as (y & Y1 & Y2).
        rewrite Forall_forall in S2. specialize (S2 y Y2). unfold before in S2. cbn [fst] in S2.
        rewrite Y1 in S2. pose proof (compare_trans _ _ _ E S2) as C. rewrite compare_refl in C. discriminate.
      * intros [[H|H]|[-> _]]; auto.
    + cbn [In map fst]. rewrite IH by assumption. split.
      * intros [H|[H|[-> H]]]; auto. right. split; [reflexivity|]. intros [C|C]; [|contradiction].
        subst k. rewrite compare_refl in E. discriminate.
      * intros [[H|H]|[-> H]]; auto. right. right. split; [reflexivity|]. tauto.
Qed.
Lemma map_insert_sorted : forall m kv, StronglySorted before m -> StronglySorted before (map_insert m kv).
Proof.
  induction m as [|[k v] m IH]; intros kv HS; cbn [map_insert].
  - repeat constructor.
  - inversion HS as [|? ? S1 S2]; subst. destruct (compare_bytes (fst kv) k) eqn:E.
    + assumption.
    + constructor; [assumption|]. constructor; [exact E|].
      eapply Forall_impl; [|exact S2]. intros y Hy. unfold before in *. cbn [fst] in Hy. eapply compare_trans; eauto.
    + constructor; [auto|]. apply Forall_forall. intros y Hy. apply map_insert_in in Hy; [|assumption].
      destruct Hy as [Hy|[-> _]].
      * rewrite Forall_forall in S2. apply S2, Hy.
      * unfold before. cbn [fst]. apply compare_gt, E.
Qed.
Lemma sorted_nodup : forall m, StronglySorted before m -> NoDup (map fst m).
Proof.
  induction 1 as [|[k v] m HS IH HF]; cbn [map fst]; constructor; [|assumption].
  intros H. apply in_map_iff in H. destruct H as (y & Y1 & Y2). rewrite Forall_forall in HF. specialize (HF y Y2).
  unfold before in HF. cbn [fst] in HF. rewrite Y1, compare_refl in HF. discriminate.
Qed.

(** The map that a list of insertions leads to. *)
Definition map_of (kvs : list (bytes * bytes)) : list (bytes * bytes) := fold_left map_insert kvs [].
Arguments map_of : simpl never.
Lemma map_of_snoc : forall kvs kv, map_of (kvs ++ [kv]) = map_insert (map_of kvs) kv.
Proof. intros. unfold map_of. rewrite fold_left_app. reflexivity. Qed.
Lemma map_of_sorted : forall kvs, StronglySorted before (map_of kvs).
Proof.
  induction kvs as [|kv kvs IH] using rev_ind; [constructor|]. rewrite map_of_snoc. apply map_insert_sorted, IH.
Qed.
Lemma map_of_nodup : forall kvs, NoDup (map fst (map_of kvs)).
Proof. intros. apply sorted_nodup, map_of_sorted. Qed.
Lemma option_ext : forall A (a b : option A), (forall v, a = Some v <-> b = Some v) -> a = b.
Proof.
  intros A [x|] [y|] H; [apply H; reflexivity| | |reflexivity].
  - specialize (H x). destruct H as [H _]. discriminate (H eq_refl).
  - specialize (H y). destruct H as [_ H]. discriminate (H eq_refl).
Qed.
Lemma map_of_in : forall kvs k v, In (k, v) (map_of kvs) <-> first_value kvs k = Some v.
Proof.
  induction kvs as [|[k0 v0] kvs IH] using rev_ind; intros k v; [split; [intros []|discriminate]|].
  rewrite map_of_snoc, map_insert_in by apply map_of_sorted. rewrite IH, first_value_app. cbn [fst].
  assert (HI : ~ In k0 (map fst (map_of kvs)) <-> first_value kvs k0 = None).
  { split; intros H.
    - apply first_value_none. intros C. apply H. apply in_map_iff in C. destruct C as ([k1 v1] & C1 & C2). cbn [fst] in C1. subst k1.
      destruct (first_value kvs k0) as [w|] eqn:E; [|apply first_value_none in E; exfalso; apply E; apply in_map_iff; exists (k0, v1); auto].
      apply in_map_iff. exists (k0, w). split; [reflexivity|]. apply IH, E.
    - intros C. apply in_map_iff in C. destruct C as ([k1 v1] & C1 & C2). cbn [fst] in C1. subst k1. apply IH in C2. congruence. }
  rewrite HI, first_value_cons. destruct (first_value kvs k) as [w|] eqn:E.
  - split; [intros [H|[H1 H2]]; congruence|auto].
  - destruct (key_eqb_spec k0 k) as [->|Hne].
    + split; [intros [H|[H1 H2]]; congruence|]. intros H. right. split; congruence.
    + split; [intros [H|[H1 H2]]; congruence|discriminate].
Qed.
Lemma map_of_first : forall kvs k, first_value (map_of kvs) k = first_value kvs k.
Proof.
  intros kvs k. apply option_ext. intros v. rewrite <- first_value_nodup by apply map_of_nodup. apply map_of_in.
Qed.
Lemma map_of_keys : forall kvs, Permutation (map fst (map_of kvs)) (distinct_keys kvs).
Proof.
  intros kvs. apply NoDup_Permutation; [apply map_of_nodup|apply NoDup_nodup|]. intros k. unfold distinct_keys. rewrite nodup_In.
  destruct (first_value kvs k) as [v|] eqn:E.
  - split; intros _.
    + apply first_value_in in E. apply in_map_iff. exists (k, v). auto.
    + apply in_map_iff. exists (k, v). split; [reflexivity|]. apply map_of_in, E.
  - split; intros H.
    + apply in_map_iff in H. destruct H as ([k1 v1] & C1 & C2). cbn [fst] in C1. subst k1. apply map_of_in in C2. congruence.
    + exfalso. apply first_value_none in E. contradiction.
Qed.

Lemma sorted_ext : forall m1 m2, StronglySorted before m1 -> StronglySorted before m2 -> (forall kv, In kv m1 <-> In kv m2) -> m1 = m2.
Proof.
  induction m1 as [|a m1 IH]; intros m2 S1 S2 H.
  - destruct m2 as [|b m2]; [reflexivity|]. exfalso. apply (proj2 (H b)). left. reflexivity.
  - destruct m2 as [|b m2]; [exfalso; apply (proj1 (H a)); left; reflexivity|].
    inversion S1 as [|? ? S1' F1]; subst. inversion S2 as [|? ? S2' F2]; subst.
    assert (Hab : a = b).
    { destruct (proj1 (H a) (or_introl eq_refl)) as [E|Ha]; [congruence|].
      destruct (proj2 (H b) (or_introl eq_refl)) as [E|Hb]; [congruence|].
      pose proof (proj1 (Forall_forall _ _) F1 b Hb) as L1. pose proof (proj1 (Forall_forall _ _) F2 a Ha) as L2.
      exfalso. exact (before_irrefl _ (before_trans _ _ _ L1 L2)). }
    subst b. f_equal. apply IH; [assumption..|]. intros kv. split; intros Hkv.
    + destruct (proj1 (H kv) (or_intror Hkv)) as [E|Hin]; [|exact Hin]. subst kv. exfalso.
      exact (before_irrefl _ (proj1 (Forall_forall _ _) F1 a Hkv)).
    + destruct (proj2 (H kv) (or_intror Hkv)) as [E|Hin]; [|exact Hin]. subst kv. exfalso.
      exact (before_irrefl _ (proj1 (Forall_forall _ _) F2 a Hkv)).
Qed.
(** The map depends only on the first value of each key. *)
Lemma map_of_ext : forall kvs1 kvs2, (forall k, first_value kvs1 k = first_value kvs2 k) -> map_of kvs1 = map_of kvs2.
Proof.
  intros kvs1 kvs2 H. apply sorted_ext; [apply map_of_sorted..|]. intros [k v]. rewrite !map_of_in, H. reflexivity.
Qed.

Lemma map_extract_ok : forall m k v, first_value m k = Some v ->
  exists m', map_extract m k = Ok (v, m') /\ forall q, q <> k -> first_value m' q = first_value m q.
Proof.
  induction m as [|[k0 v0] m IH]; intros k v H; [discriminate|]. rewrite first_value_cons in H. cbn [map_extract].
  destruct (key_eqb_spec k0 k) as [->|Hne].
  - rewrite compare_refl. inv H. exists m. split; [reflexivity|]. intros q Hq. rewrite first_value_cons.
    destruct (key_eqb_spec k q); congruence.
  - destruct (IH k v H) as (m' & E & HF). exists ((k0, v0) :: m'). split.
    + destruct (compare_bytes k k0) eqn:C; [apply compare_eq in C; congruence|rewrite E; reflexivity..].
    + intros q Hq. rewrite !first_value_cons. rewrite HF by assumption. reflexivity.
Qed.

(** * The dense databases below *)

Lemma inserts_total : forall vs, N.of_nat (16 * total_blocks vs) < 2 ^ 62 ->
  fold_left insert vs new_builder = {| b_values := vs; b_total := Z.of_nat (16 * total_blocks vs); b_built := false |}.
Proof.
  induction vs as [|v vs IH] using rev_ind; intros H; [reflexivity|].
  rewrite total_blocks_app in *. change (total_blocks [v]) with (blocks (length v) + 0)%nat in *.
  change (2 ^ 62) with 4611686018427387904 in *. rewrite fold_left_app, IH by lia. cbn [fold_left]. unfold insert. cbn [b_values b_total b_built].
  rewrite align_bytes_eq by (unfold blocks in H; change (2 ^ 63) with 9223372036854775808; lia).
  f_equal. unfold to_int64. lia.
Qed.
Lemma dense_built : forall a vs, alloc_ok a -> N.of_nat (16 * total_blocks vs) < 2 ^ 62 ->
  exists d, fst (build a (fold_left insert vs new_builder)) = Ok d /\ holds d vs.
Proof.
  intros a vs Ha Hc. rewrite inserts_total by assumption. change (2 ^ 62) with 4611686018427387904 in Hc.
  destruct (build_ok a {| b_values := vs; b_total := Z.of_nat (16 * total_blocks vs); b_built := false |}) as (d & E & HI); auto.
  - cbn [b_total]. lia.
  - exists d. rewrite E. split; [reflexivity|]. eapply dbi_holds, HI.
Qed.

(** * Hash functions *)

Lemma functions_eq : forall sha config family k fs,
  hash_family_from_config sha config = Ok family -> create_hash_functions family k = Ok fs ->
  fs = map (fun j => sha256_hash_function sha (hf_seed config ++ str_cat (N.of_nat j))) (seq 0 (Z.to_nat k)) /\ (0 <= k)%Z /\
  hf_seed config <> [] /\ hf_family config = 1%Z.
Proof.
  intros sha config family k fs H1 H2. unfold hash_family_from_config in H1. bind_inv H1. bind_inv H1. inv H1.
  unfold create_hash_functions in H2. bind_inv H2. inv H2. apply check_ok in Hb, Hb0, Hb1.
  split; [reflexivity|]. split; [lia|]. split; [|lia]. destruct (hf_seed config); [discriminate|discriminate].
Qed.
Lemma function_value : forall sha seed q n j, (forall x, length (sha x) = 32%nat) -> (0 < n < 2147483648)%Z ->
  sha256_hash_function sha (seed ++ str_cat (N.of_nat j)) q n = Ok (Z.of_nat (bucket sha seed n q j)) /\
  (Z.of_nat (bucket sha seed n q j) < n)%Z.
Proof.
  intros sha seed q n j Hs Hn. rewrite sha256_value by auto. unfold bucket. rewrite <- app_assoc.
  pose proof (Z.mod_pos_bound (Z.of_N (le_decode (sha (seed ++ str_cat (N.of_nat j) ++ q)))) n ltac:(lia)) as B.
  rewrite Z2Nat.id by lia. split; [reflexivity|lia].
Qed.
Lemma functions_into : forall sha seed n k, (forall x, length (sha x) = 32%nat) -> (0 < n < 2147483648)%Z ->
  Forall (hashes_into n) (map (fun j => sha256_hash_function sha (seed ++ str_cat (N.of_nat j))) (seq 0 k)).
Proof.
  intros sha seed n k Hs Hn. apply Forall_forall. intros f Hf. apply in_map_iff in Hf. destruct Hf as (j & <- & _).
  intros q. destruct (function_value sha seed q n j Hs Hn) as [E B]. eexists. split; [exact E|lia].
Qed.
Lemma functions_candidate : forall sha seed n k q i, (forall x, length (sha x) = 32%nat) -> (0 < n < 2147483648)%Z ->
  candidate (map (fun j => sha256_hash_function sha (seed ++ str_cat (N.of_nat j))) (seq 0 k)) n q i <->
  exists j, (j < k)%nat /\ i = bucket sha seed n q j.
Proof.
  intros sha seed n k q i Hs Hn. unfold candidate. split.
  - intros (f & Hf & E). apply in_map_iff in Hf. destruct Hf as (j & <- & Hj). apply in_seq in Hj. exists j. split; [lia|].
    destruct (function_value sha seed q n j Hs Hn) as [E' _]. rewrite E in E'. inv E'. lia.
  - intros (j & Hj & ->). exists (sha256_hash_function sha (seed ++ str_cat (N.of_nat j))). split.
    + apply in_map_iff. exists j. split; [reflexivity|]. apply in_seq. lia.
    + apply function_value; assumption.
Qed.

(** * The cuckoo database *)

Definition slot_key (slot : option bytes) : bytes := match slot with Some k => k | None => [] end.
Definition slot_value (m : list (bytes * bytes)) (slot : option bytes) : bytes :=
  match slot with Some k => match first_value m k with Some v => v | None => [] end | None => [] end.

Lemma fill_ok : forall table m ks vs, NoDup (elements table) ->
  (forall e, In e (elements table) -> exists v, first_value m e = Some v) ->
  cuckoo_fill table m ks vs = Ok (fold_left insert (map slot_key table) ks, fold_left insert (map (slot_value m) table) vs).
Proof.
  intros table m ks vs HN HF. unfold cuckoo_fill.
  match goal with |- bind (foldM ?f _ _) _ = _ => assert (HG : exists m',
    foldM f table (m, ks, vs) = Ok (m', fold_left insert (map slot_key table) ks, fold_left insert (map (slot_value m) table) vs)) end.
  2:{ destruct HG as [m' ->]. reflexivity. }
  revert m ks vs HN HF. induction table as [|slot table IH]; intros m ks vs HN HF; cbn [foldM map fold_left]; [eauto|].
  destruct slot as [k|].
  - cbn [elements flat_map app] in HN, HF. change (flat_map _ table) with (elements table) in HN, HF. inversion HN as [|? ? H1 H2]; subst.
    destruct (HF k) as [v Hv]; [left; reflexivity|]. destruct (map_extract_ok m k v Hv) as (m' & E & HE). rewrite E. cbn [bind].
    destruct (IH m' (insert ks k) (insert vs v)) as [m'' EQ]; [assumption| |].
    { intros e He. rewrite HE; [apply HF; right; assumption|]. intros ->. contradiction. }
    exists m''. rewrite EQ. cbn [slot_key slot_value]. rewrite Hv.
    replace (map (slot_value m') table) with (map (slot_value m) table); [reflexivity|].
    apply map_ext_in. intros [e|] He; [|reflexivity]. cbn [slot_value]. rewrite HE; [reflexivity|].
    intros ->. apply H1. unfold elements. apply in_flat_map. exists (Some k). split; [assumption|left; reflexivity].
  - cbn [bind]. apply IH; assumption.
Qed.

Lemma hash_keys_ok : forall fs n r rnd records c,
  Forall (hashes_into n) fs -> (forall k, (rnd k < length fs)%nat) -> (0 < n)%Z ->
  cuckoo_inv fs n r None c -> Forall (fun kv => fst kv <> []) records ->
  exists c', cuckoo_hash_keys rnd records c = Ok c' /\ cuckoo_inv fs n r None c' /\
    Permutation (map fst records ++ elements (ck_table c) ++ ck_stash c) (elements (ck_table c') ++ ck_stash c').
Proof.
  intros fs n r rnd records c Hfs Hrnd Hn. revert c. induction records as [|[k v] records IH]; intros c I HF.
  - exists c. split; [reflexivity|]. split; [assumption|]. reflexivity.
  - fcons HF Hk HF. unfold cuckoo_hash_keys in *. cbn [foldM map fst] in *.
    destruct (insert_ok fs n r None rnd Hfs Hrnd Hn c k I) as (c1 & I1 & [(E & P) | (E & _ & C & _)]); [|discriminate].
    rewrite E. destruct k as [|x k]; [congruence|]. cbn [length Nat.eqb negb check bind].
    destruct (IH c1 I1 HF) as (c' & E' & I' & P'). exists c'. split; [assumption|]. split; [assumption|].
    etransitivity; [|exact P']. cbn [app]. etransitivity; [apply Permutation_middle|]. apply Permutation_app_head. exact P.
Qed.
Lemma hash_keys_nonempty : forall rnd records c c', cuckoo_hash_keys rnd records c = Ok c' ->
  Forall (fun kv => fst kv <> []) records.
Proof.
  intros rnd records. induction records as [|[k v] records IH]; intros c c' H; constructor.
  - unfold cuckoo_hash_keys in H. cbn [foldM fst] in H. bind_inv H. bind_inv Hb. apply check_ok in Hb0. destruct k; [discriminate|discriminate].
  - unfold cuckoo_hash_keys in *. cbn [foldM fst] in H. bind_inv H. eapply IH. exact H.
Qed.

(** The builder agrees with its history. *)
Record csim (b : cuckoo_builder) (g : gsparse cuckoo_params) : Prop := {
  cs_p : cb_params b = gs_params g;
  cs_k : cb_built b = false -> cb_keys b = None \/ cb_keys b = Some new_builder;
  cs_v : cb_built b = false -> cb_values b = None \/ cb_values b = Some new_builder;
  cs_r : cb_built b = false -> cb_records b = map_of (gs_records g);
  cs_b : cb_built b = gs_built g
}.
Lemma cstep_sim : forall b g o, csim b g -> csim (cstep b o) (gcstep g o).
Proof.
  intros b g o [H1 H2 H3 H4 H5]. destruct o as [kv| |p|d|d| |lo]; cbn [cstep gcstep].
  - constructor; cbn; auto. intros E. rewrite map_of_snoc, H4 by exact E. reflexivity.
  - constructor; cbn; auto; intros _; [destruct (cb_keys b)|destruct (cb_values b)]; cbn; auto.
  - constructor; cbn; auto.
  - constructor; cbn; auto. destruct d; cbn; auto.
  - constructor; cbn; auto. destruct d; cbn; auto.
  - constructor; cbn; auto; intros E; [destruct (H2 E) as [-> | ->]|destruct (H3 E) as [-> | ->]]; cbn; auto.
  - unfold cuckoo_after_build. destruct (cb_built b) eqn:E; constructor; cbn; auto; intros; congruence.
Qed.
Lemma crun_sim : forall ops, csim (crun ops) (gcrun ops).
Proof.
  intros ops. unfold crun, gcrun.
  assert (H : forall b g, csim b g -> csim (fold_left cstep ops b) (fold_left gcstep ops g)).
  { induction ops as [|o ops IH]; intros b g H; cbn [fold_left]; [assumption|]. apply IH, cstep_sim, H. }
  apply H. constructor; cbn; auto.
Qed.

Lemma nth_error_elements : forall t i e, nth_error t i = Some (Some e) -> In e (elements t).
Proof. intros t i e H. apply nth_error_In in H. unfold elements. apply in_flat_map. exists (Some e). split; [assumption|left; reflexivity]. Qed.
Lemma cost_le : forall (A : Type) (f : A -> bytes) (size : A -> N) l, (forall a, N.of_nat (length (f a)) <= size a) ->
  cost (map f l) <= fold_right (fun a n => size a + n) 0 l + 16 * N.of_nat (length l).
Proof.
  intros A f size l H. induction l as [|a l IH]; [discriminate|]. cbn [map fold_right length].
  change (cost (f a :: map f l)) with (N.of_nat (length (f a)) + 16 + cost (map f l)). specialize (H a). lia.
Qed.
(** Bytes of the distinct keys and their values. *)
Lemma sum_perm : forall (l1 l2 : list bytes) (size : bytes -> N), Permutation l1 l2 ->
  fold_right (fun a n => size a + n) 0 l1 = fold_right (fun a n => size a + n) 0 l2.
Proof. intros l1 l2 size H. induction H; cbn [fold_right]; lia. Qed.
Lemma sum_elements : forall t (size : bytes -> N),
  fold_right (fun s n => match s with Some k => size k | None => 0 end + n) 0 t = fold_right (fun a n => size a + n) 0 (elements t).
Proof.
  intros t size. induction t as [|[k|] t IH]; cbn [fold_right elements flat_map app]; [reflexivity| |]; change (flat_map _ t) with (elements t); lia.
Qed.
Lemma sum_app : forall (a b : list bytes) (size : bytes -> N),
  fold_right (fun a n => size a + n) 0 (a ++ b) = fold_right (fun a n => size a + n) 0 a + fold_right (fun a n => size a + n) 0 b.
Proof. intros a b size. induction a as [|x a IH]; cbn [app fold_right]; lia. Qed.
Definition pair_size (kvs : list (bytes * bytes)) (k : bytes) : N :=
  N.of_nat (length k) + match first_value kvs k with Some v => N.of_nat (length v) | None => 0 end.
Lemma distinct_size : forall kvs, fold_right (fun k n => pair_size kvs k + n) 0 (distinct_keys kvs) <= total_bytes kvs.
Proof.
  assert (HG : forall l pre, NoDup l -> (forall k, In k l -> In k (map fst pre)) ->
    fold_right (fun k n => pair_size pre k + n) 0 l <= total_bytes pre).
  { intros l pre. revert l. induction pre as [|[k v] pre IH]; intros l HN HI.
    - destruct l as [|x l]; [discriminate|]. destruct (HI x (or_introl eq_refl)).
    - change (total_bytes ((k, v) :: pre)) with (N.of_nat (length k) + N.of_nat (length v) + total_bytes pre).
      assert (HS : forall l', ~ In k l' -> fold_right (fun q n => pair_size ((k, v) :: pre) q + n) 0 l'
                              = fold_right (fun q n => pair_size pre q + n) 0 l').
      { intros l' Hl. induction l' as [|q l' IHl]; [reflexivity|]. cbn [fold_right]. rewrite IHl by (intros C; apply Hl; right; assumption).
        unfold pair_size at 1. rewrite first_value_cons. destruct (key_eqb_spec k q); [|reflexivity].
        exfalso. apply Hl. left. congruence. }
      destruct (in_dec (list_eq_dec N.eq_dec) k l) as [Hin|Hnin].
      + apply in_split in Hin. destruct Hin as (l1 & l2 & ->).
        pose proof (NoDup_remove_1 _ _ _ HN) as HN1. pose proof (NoDup_remove_2 _ _ _ HN) as HN2.
        rewrite (sum_perm _ (k :: l1 ++ l2)) by (symmetry; apply Permutation_middle). cbn [fold_right]. rewrite HS by assumption.
        assert (HP : pair_size ((k, v) :: pre) k = N.of_nat (length k) + N.of_nat (length v)).
        { unfold pair_size. rewrite first_value_cons, key_eqb_refl. reflexivity. }
        rewrite HP. specialize (IH (l1 ++ l2) HN1).
        assert (fold_right (fun k n => pair_size pre k + n) 0 (l1 ++ l2) <= total_bytes pre); [|lia].
        apply IH. intros q Hq. destruct (HI q) as [E|E]; [apply in_app_iff in Hq; apply in_app_iff; cbn [In]; tauto| |assumption].
        cbn [fst] in E. subst q. contradiction.
      + rewrite HS by assumption. specialize (IH l HN).
        assert (fold_right (fun k n => pair_size pre k + n) 0 l <= total_bytes pre); [|lia].
        apply IH. intros q Hq. destruct (HI q Hq) as [E|E]; [cbn [fst] in E; subst q; contradiction|assumption]. }
  intros kvs. apply HG; [apply NoDup_nodup|]. intros k Hk. unfold distinct_keys in Hk. rewrite nodup_In in Hk. exact Hk.
Qed.

Lemma nodup_app_r : forall A (a b : list A), NoDup (a ++ b) -> NoDup b.
Proof. intros A a b. induction a as [|x a IH]; intros H; [assumption|]. inversion H; subst. auto. Qed.
Lemma to_int32_id : forall x, (0 <= x < 2147483648)%Z -> to_int32 x = x.
Proof. intros x H. unfold to_int32. lia. Qed.

(** The hash table of Build: it depends only on the hash functions, the random choices, the
    parameters and the map of the records. *)
Definition filled (sha : bytes -> bytes) (rnd : nat -> nat) (p : cuckoo_params) (m : list (bytes * bytes)) : res cuckoo :=
  family <- hash_family_from_config sha (cp_hash p) ;;
  hasher <- cuckoo_create_family family (to_int32 (cp_buckets p)) (cp_functions p) (to_int32 (Z.of_nat (length m))) None ;;
  cuckoo_hash_keys rnd m hasher.

Section CuckooBuild.
Variables (sha : bytes -> bytes) (rnd : nat -> nat) (ak av : alloc) (b : cuckoo_builder) (g : gsparse cuckoo_params).
Let p := gs_params g.
Let n := to_int32 (cp_buckets p).
Let seed := hf_seed (cp_hash p).
Let k := Z.to_nat (cp_functions p).
Hypothesis Hsha : forall x, length (sha x) = 32%nat.
Hypothesis Hsim : csim b g.
Hypothesis Hnb : gs_built g = false.
Hypothesis Hrnd : forall i, (rnd i < k)%nat.
Hypothesis Hak : alloc_ok ak.
Hypothesis Hav : alloc_ok av.

(** What a table of a successful Build looks like. *)
Record stored (table : list (option bytes)) (lost : list bytes) : Prop := {
  st_len : Z.of_nat (length table) = n;
  st_perm : Permutation (distinct_keys (gs_records g)) (lost ++ elements table);
  st_place : forall i key, nth_error table i = Some (Some key) -> exists j, (j < k)%nat /\ i = bucket sha seed n key j
}.
Definition params_ok : Prop :=
  (0 < n)%Z /\ (0 < cp_buckets p)%Z /\ (2 <= cp_functions p)%Z /\ seed <> [] /\ hf_family (cp_hash p) = 1%Z /\
  Forall (fun kv => fst kv <> []) (gs_records g) /\ (0 <= to_int32 (Z.of_nat (length (distinct_keys (gs_records g)))))%Z.

Lemma or_new_sim : or_new (cb_keys b) = new_builder /\ or_new (cb_values b) = new_builder.
Proof using Hsim Hnb.
  destruct Hsim as [_ H1 H2 _ H5]. rewrite Hnb in H5.
  destruct (H1 H5) as [E1|E1], (H2 H5) as [E2|E2]; rewrite E1, E2; split; reflexivity.
Qed.

Lemma build_total : params_ok -> total_bytes (gs_records g) + 16 * Z.to_N (cp_buckets p) < 2 ^ 62 ->
  exists d c, filled sha rnd p (map_of (gs_records g)) = Ok c /\
    cuckoo_build sha rnd ak av b = (if (n =? cp_buckets p)%Z then Ok d else Err INTERNAL) /\
    stored (ck_table c) (ck_stash c) /\
    holds (cd_keys d) (map slot_key (ck_table c)) /\ holds (cd_values d) (map (slot_value (gs_records g)) (ck_table c)) /\
    cd_size d = Z.of_nat (length (distinct_keys (gs_records g))) /\ Z.of_nat (cd_bits d) = n.
Proof using Hsha Hsim Hnb Hrnd Hak Hav.
  intros (Pn0 & Pb & Pk & Ps & Pf & Pe & Pr) Hsize.
  assert (Hrange : (n < 2147483648)%Z) by (unfold n, to_int32; clear; lia).
  assert (Pn : (0 < n < 2147483648)%Z) by (split; assumption).
  destruct or_new_sim as [OK OV]. destruct Hsim as [S1 _ _ S4 S5]. specialize (S4 (eq_trans S5 Hnb)).
  unfold cuckoo_build. rewrite S5, Hnb. cbn [fst]. unfold cuckoo_build_db. rewrite S1, S4, OK, OV. fold p.
  assert (Hfam : hash_family_from_config sha (cp_hash p) = Ok (wrap_with_seed (sha256_hash_family sha) seed)).
  { unfold hash_family_from_config. fold seed. rewrite Pf. destruct seed; [congruence|]. reflexivity. }
  assert (E1 : negb (cp_buckets p <=? 0)%Z = true) by (clear - Pb; lia).
  assert (E2 : negb (cp_functions p <=? 0)%Z = true) by (clear - Pk; lia).
  rewrite E1, E2. cbn [check bind]. rewrite Hfam. cbn [bind]. fold n.
  assert (HLm : length (map_of (gs_records g)) = length (distinct_keys (gs_records g))).
  { rewrite <- (map_length fst). apply Permutation_length, map_of_keys. }
  unfold cuckoo_create_family.
  set (fs := map (fun j => sha256_hash_function sha (seed ++ str_cat (N.of_nat j))) (seq 0 k)).
  assert (Hcf : create_hash_functions (wrap_with_seed (sha256_hash_family sha) seed) (cp_functions p) = Ok fs).
  { unfold create_hash_functions. assert (negb (cp_functions p <? 0)%Z = true) as -> by (clear - Pk; lia). reflexivity. }
  rewrite Hcf. cbn [bind]. rewrite HLm.
  set (r := to_int32 (Z.of_nat (length (distinct_keys (gs_records g))))) in *.
  assert (Hlfs : length fs = k) by (unfold fs; rewrite map_length, seq_length; reflexivity).
  destruct (cuckoo_create fs n r None) as [c|e| |] eqn:Hcc;
    try (exfalso; unfold cuckoo_create in Hcc;
         assert (X1 : negb (n <=? 0)%Z = true) by (clear - Pn; lia); rewrite X1 in Hcc;
         assert (X2 : negb (Nat.ltb (length fs) 2) = true) by (rewrite Hlfs; subst k; clear - Pk; lia); rewrite X2 in Hcc;
         assert (X3 : negb (r <? 0)%Z = true) by (clear - Pr; lia); rewrite X3 in Hcc; discriminate).
  destruct (cuckoo_create_inv _ _ _ _ _ Hcc) as (I & Ht & Hst & _ & _ & _ & _). cbn [bind].
  assert (Pe' : Forall (fun kv => fst kv <> []) (map_of (gs_records g))).
  { apply Forall_forall. intros [q v] Hq. apply map_of_in, first_value_in in Hq.
    apply (proj1 (Forall_forall _ _) Pe (q, v) Hq). }
  assert (Pn' : (0 < n)%Z) by (clear - Pn; lia).
  assert (Hrnd' : forall i, (rnd i < length fs)%nat) by (intros i; rewrite Hlfs; apply Hrnd).
  destruct (hash_keys_ok fs n r rnd (map_of (gs_records g)) c (functions_into sha seed n k Hsha Pn) Hrnd' Pn' I Pe') as (c' & E & I' & P).
  assert (HFl : filled sha rnd p (map_of (gs_records g)) = Ok c').
  { unfold filled, cuckoo_create_family. rewrite Hfam. cbn [bind]. rewrite Hcf. cbn [bind]. rewrite HLm. fold n r. rewrite Hcc. exact E. }
  rewrite E. cbn [bind]. rewrite Ht, Hst, elements_repeat_none, !app_nil_r in P.
  set (table := ck_table c') in *.
  assert (P2 : Permutation (distinct_keys (gs_records g)) (ck_stash c' ++ elements table)).
  { etransitivity; [symmetry; apply map_of_keys|]. etransitivity; [exact P|]. apply Permutation_app_comm. }
  assert (HN : NoDup (elements table)).
  { pose proof (Permutation_NoDup P2 (NoDup_nodup _ _)) as HN. apply nodup_app_r in HN. exact HN. }
  assert (HF : forall e, In e (elements table) -> exists v, first_value (map_of (gs_records g)) e = Some v).
  { intros e He. destruct (first_value (map_of (gs_records g)) e) as [v|] eqn:EE; [eauto|]. exfalso.
    rewrite map_of_first in EE. apply first_value_none in EE. apply EE.
    apply (nodup_In (list_eq_dec N.eq_dec)). eapply Permutation_in; [symmetry; exact P2|]. apply in_app_iff. right. exact He. }
  rewrite (fill_ok table (map_of (gs_records g)) new_builder new_builder HN HF). cbn [bind].
  assert (HV : map (slot_value (map_of (gs_records g))) table = map (slot_value (gs_records g)) table).
  { apply map_ext. intros [e|]; [|reflexivity]. cbn [slot_value]. rewrite map_of_first. reflexivity. }
  rewrite HV.
  assert (HL : Z.of_nat (length table) = n) by (unfold table; rewrite (ci_len _ _ _ _ _ I'); clear - Pn; lia).
  assert (HST : stored table (ck_stash c')).
  { constructor; [exact HL|exact P2|]. intros i key Hi. apply (functions_candidate sha seed n k key i Hsha Pn).
    apply (ci_placed _ _ _ _ _ I'), Hi. }
  assert (HSum : fold_right (fun a m => pair_size (gs_records g) a + m) 0 (elements table) <= total_bytes (gs_records g)).
  { pose proof (distinct_size (gs_records g)) as HD.
    rewrite (sum_perm _ _ _ P2), sum_app in HD. clear - HD. lia. }
  assert (HK : cost (map slot_key table) < 2 ^ 62).
  { pose proof (cost_le _ slot_key (fun s => match s with Some q => pair_size (gs_records g) q | None => 0 end) table) as HC.
    cbv beta in HC. rewrite sum_elements in HC. assert (HX : forall a : option bytes, N.of_nat (length (slot_key a)) <=
      match a with Some q => pair_size (gs_records g) q | None => 0 end).
    { intros [q|]; [unfold pair_size; cbn [slot_key]; clear; lia|cbn; clear; lia]. }
    specialize (HC HX). assert (n <= cp_buckets p)%Z by (unfold n, to_int32; clear - Pb; lia). clear - HC HSum Hsize HL H Pn. lia. }
  assert (HVc : cost (map (slot_value (gs_records g)) table) < 2 ^ 62).
  { pose proof (cost_le _ (slot_value (gs_records g)) (fun s => match s with Some q => pair_size (gs_records g) q | None => 0 end) table) as HC.
    cbv beta in HC. rewrite sum_elements in HC. assert (HX : forall a : option bytes, N.of_nat (length (slot_value (gs_records g) a)) <=
      match a with Some q => pair_size (gs_records g) q | None => 0 end).
    { intros [q|]; [unfold pair_size; cbn [slot_value]; destruct (first_value (gs_records g) q); cbn [length]; clear; lia|cbn; clear; lia]. }
    specialize (HC HX). assert (n <= cp_buckets p)%Z by (unfold n, to_int32; clear - Pb; lia). clear - HC HSum Hsize HL H Pn. lia. }
  destruct (dense_built ak _ Hak (N.le_lt_trans _ _ _ (cost_blocks _) HK)) as (kd & EK & DK).
  destruct (dense_built av _ Hav (N.le_lt_trans _ _ _ (cost_blocks _) HVc)) as (vd & EV & DV).
  rewrite EK. cbn [bind]. rewrite EV. cbn [bind].
  destruct DK as (DK1 & DK2 & DK3) eqn:EDK. destruct DV as (DV1 & DV2 & DV3) eqn:EDV. rewrite DK2, DV2, !map_length, Nat.eqb_refl, HL.
  cbn [andb]. eexists {| cd_keys := kd; cd_values := vd; cd_size := _; cd_bits := _ |}, c'.
  split; [exact HFl|].
  split; [destruct (n =? cp_buckets p)%Z; reflexivity|]. cbn [cd_keys cd_values cd_size cd_bits].
  split; [exact HST|]. split; [exact DK|]. split; [exact DV|]. split; [reflexivity|]. exact HL.
Qed.


(** Build succeeds only with valid parameters. *)
Lemma build_params : forall d, cuckoo_build sha rnd ak av b = Ok d -> params_ok.
Proof using Hsha Hsim Hnb.
  intros d H. destruct Hsim as [S1 _ _ S4 S5]. specialize (S4 (eq_trans S5 Hnb)).
  unfold cuckoo_build in H. rewrite S5, Hnb in H. unfold cuckoo_build_db in H. rewrite S1, S4 in H. fold p in H.
  bind_inv H. bind_inv H. bind_inv H. bind_inv H. bind_inv H. clear H.
  apply check_ok in Hb, Hb0. unfold cuckoo_create_family in Hb2. bind_inv Hb2.
  destruct (functions_eq _ _ _ _ _ Hb1 Hb4) as (Ef & Hk & Hs & Hf). fold n in Hb2. fold seed in Hs.
  destruct (cuckoo_create_inv _ _ _ _ _ Hb2) as (I & _ & _ & _ & C1 & C2 & C3).
  assert (HLm : length (map_of (gs_records g)) = length (distinct_keys (gs_records g))).
  { rewrite <- (map_length fst). apply Permutation_length, map_of_keys. }
  apply hash_keys_nonempty in Hb3.
  assert (Hne : Forall (fun kv => fst kv <> []) (gs_records g)).
  { apply Forall_forall. intros [q v] Hq E. cbn [fst] in E. subst q.
    destruct (first_value (gs_records g) []) as [w|] eqn:EE.
    - apply map_of_in in EE. exact (proj1 (Forall_forall _ _) Hb3 _ EE eq_refl).
    - apply first_value_none in EE. apply EE. apply in_map_iff. exists ([], v). auto. }
  rewrite HLm in C3. assert (C2' : (2 <= cp_functions p)%Z).
  { rewrite Ef, map_length, seq_length in C2. clear - C2 Hk. lia. }
  split; [exact C1|]. split; [clear - Hb; lia|]. auto 7.
Qed.
End CuckooBuild.

(** * Serialized buckets *)

Lemma varint_round : forall fuel x rest, x < 128 ^ N.of_nat fuel -> (0 < fuel)%nat ->
  varint_decode fuel (varint_encode fuel x ++ rest) = Some (x, rest).
Proof.
  induction fuel as [|fuel IH]; intros x rest Hx Hf; [lia|]. cbn [varint_encode].
  destruct (N.ltb_spec x 128) as [H|H].
  - cbn [app varint_decode]. destruct (N.ltb_spec x 128); [reflexivity|lia].
  - cbn [app varint_decode]. assert (HM : x mod 128 < 128) by (apply N.mod_lt; lia).
    destruct (N.ltb_spec (128 + x mod 128) 128); [lia|].
    rewrite Nat2N.inj_succ, N.pow_succ_r' in Hx.
    assert (Hd : x / 128 < 128 ^ N.of_nat fuel) by (apply N.div_lt_upper_bound; lia).
    rewrite IH; [|exact Hd|].
    + f_equal. f_equal. clear. lia.
    + destruct fuel; [|lia]. change (128 ^ N.of_nat 0) with 1 in Hd. clear - Hd H. lia.
Qed.

Definition small (data : bytes) : Prop := N.of_nat (length data) < 2 ^ 63.
Lemma parse_field : forall fuel tag data rest acc, tag = 10 \/ tag = 18 -> small data ->
  parse_fields (S fuel) [] (encode_field tag data ++ rest) acc
  = parse_fields fuel [] rest (if tag =? 10 then (fst acc ++ [data], snd acc) else (fst acc, snd acc ++ [data])).
Proof.
  intros fuel tag data rest acc Ht Hs. cbn [parse_fields]. unfold encode_field. cbn [app].
  assert (HV : forall r, varint_decode 10 (tag :: r) = Some (tag, r)).
  { intros r. cbn [varint_decode]. destruct (N.ltb_spec tag 128); [reflexivity|]. destruct Ht; subst; lia. }
  rewrite HV. rewrite <- app_assoc.
  assert (HR : varint_decode 10 (varint_encode 10 (N.of_nat (length data)) ++ data ++ rest) = Some (N.of_nat (length data), data ++ rest)).
  { apply varint_round; [|lia]. unfold small in Hs. eapply N.lt_trans; [exact Hs|]. vm_compute. reflexivity. }
  assert (HK : skip_bytes (N.of_nat (length data)) (data ++ rest) = Some rest).
  { unfold skip_bytes. destruct (N.ltb_spec (N.of_nat (length (data ++ rest))) (N.of_nat (length data))) as [C|_]; [rewrite app_length in C; lia|].
    rewrite Nat2N.id, skipn_app_exact by reflexivity. reflexivity. }
  rewrite HR. destruct Ht; subst tag; cbn [N.eqb Pos.eqb].
  - change (10 / 8) with 1. change (10 mod 8) with 2. cbn [N.eqb Pos.eqb]. rewrite HK, Nat2N.id, firstn_app_exact by reflexivity. reflexivity.
  - change (18 / 8) with 2. change (18 mod 8) with 2. cbn [N.eqb Pos.eqb]. rewrite HK, Nat2N.id, firstn_app_exact by reflexivity. reflexivity.
Qed.
Lemma encode_field_pos : forall tag data, (0 < length (encode_field tag data))%nat.
Proof. intros. unfold encode_field. cbn [length]. lia. Qed.
Lemma parse_run : forall tag l fuel rest acc, tag = 10 \/ tag = 18 -> Forall small l ->
  parse_fields (length l + fuel) [] (flat_map (encode_field tag) l ++ rest) acc
  = parse_fields fuel [] rest (if tag =? 10 then (fst acc ++ l, snd acc) else (fst acc, snd acc ++ l)).
Proof.
  intros tag l. induction l as [|d l IH]; intros fuel rest acc Ht HF.
  - cbn [length Nat.add flat_map app]. rewrite !app_nil_r. destruct acc, (tag =? 10); reflexivity.
  - fcons HF Hd Hl. cbn [length Nat.add flat_map]. rewrite <- app_assoc, parse_field, IH by assumption.
    destruct (tag =? 10); cbn [fst snd]; rewrite <- app_assoc; reflexivity.
Qed.
Lemma parse_zeros : forall fuel z acc, parse_fields fuel [] (repeat 0 z) acc = acc.
Proof. intros [|fuel] [|z] acc; reflexivity. Qed.
Lemma flat_map_encode_len : forall tag l, (length l <= length (flat_map (encode_field tag) l))%nat.
Proof.
  intros tag l. induction l as [|d l IH]; [apply Nat.le_refl|]. cbn [flat_map length]. rewrite app_length.
  pose proof (encode_field_pos tag d). lia.
Qed.
Lemma parse_serialized : forall b z, Forall small (fst b) -> Forall small (snd b) ->
  parse_bucket (serialize_bucket b ++ repeat 0 z) = b.
Proof.
  intros [ks vs] z Hk Hv. unfold parse_bucket, serialize_bucket. cbn [fst snd] in *.
  set (len := length ((flat_map (encode_field 10) ks ++ flat_map (encode_field 18) vs) ++ repeat 0 z)).
  assert (HL : (length ks + length vs <= len)%nat).
  { unfold len. rewrite !app_length. pose proof (flat_map_encode_len 10 ks). pose proof (flat_map_encode_len 18 vs). lia. }
  replace len with (length ks + (length vs + (len - length ks - length vs)))%nat by (clear - HL; lia).
  rewrite <- app_assoc, parse_run by auto. cbn [N.eqb fst snd app]. change (10 =? 10) with true. cbn iota.
  rewrite parse_run by auto. change (18 =? 10) with false. cbn [fst snd app]. apply parse_zeros.
Qed.
Lemma varint_bytes : forall fuel x, is_bytes (varint_encode fuel x).
Proof.
  induction fuel as [|fuel IH]; intros x; cbn [varint_encode]; [constructor|].
  destruct (N.ltb_spec x 128); constructor; try lia; [constructor|apply IH].
Qed.
Lemma encode_bytes : forall tag l, tag < 256 -> Forall is_bytes l -> is_bytes (flat_map (encode_field tag) l).
Proof.
  intros tag l Ht. induction l as [|d l IH]; intros HF; [constructor|]. fcons HF Hd Hl. cbn [flat_map]. unfold is_bytes.
  apply Forall_app. split; [|apply IH; assumption]. unfold encode_field. constructor; [assumption|]. apply Forall_app.
  split; [apply varint_bytes|exact Hd].
Qed.
Lemma varint_nonempty : forall fuel x, (0 < fuel)%nat -> varint_encode fuel x <> [].
Proof. intros [|fuel] x H; [lia|]. cbn [varint_encode]. destruct (x <? 128); discriminate. Qed.

(** * The simple database *)

Section SimpleBuild.
Variables (sha : bytes -> bytes) (seed : bytes) (n : Z).
Hypothesis Hsha : forall x, length (sha x) = 32%nat.
Hypothesis Hn : (0 < n < 2147483648)%Z.
Let f := sha256_hash_function sha (seed ++ str_cat 0).
(** The records of bucket [i], in the order of insertion. *)
Definition load (kvs : list (bytes * bytes)) (i : nat) : list (bytes * bytes) :=
  filter (fun kv => Nat.eqb (bucket sha seed n (fst kv) 0) i) kvs.
Definition proto_of (l : list (bytes * bytes)) : bucket_proto := (map fst l, map snd l).

Lemma distribute_ok : forall kvs protos, length protos = Z.to_nat n -> Forall (fun kv => fst kv <> []) kvs ->
  exists protos', simple_distribute f n kvs protos = Ok protos' /\ length protos' = length protos /\
    forall i pr, nth_error protos i = Some pr ->
      nth_error protos' i = Some (fst pr ++ map fst (load kvs i), snd pr ++ map snd (load kvs i)).
Proof using Hsha Hn.
  induction kvs as [|[k v] kvs IH]; intros protos HL HF.
  - exists protos. split; [reflexivity|]. split; [reflexivity|]. intros i [ks vs] H. cbn [load filter map fst snd]. rewrite !app_nil_r. exact H.
  - fcons HF Hk HF. unfold simple_distribute in *. cbn [foldM fst snd] in *.
    destruct k as [|x k]; [congruence|]. cbn [length Nat.eqb negb check bind].
    destruct (function_value sha seed (x :: k) n 0 Hsha Hn) as [E B]. change (N.of_nat 0) with 0 in E. fold f in E. rewrite E. cbn [bind].
    set (i0 := bucket sha seed n (x :: k) 0) in *.
    rewrite atz_at by lia. rewrite Nat2Z.id.
    destruct (at_or_ub_lt _ protos i0) as [pr Hpr]; [rewrite HL; clear - B Hn; lia|]. unfold bucket_proto in *. rewrite Hpr. cbn [bind]. apply at_or_ub_ok in Hpr.
    destruct (IH (set_nth protos i0 (fst pr ++ [x :: k], snd pr ++ [v]))) as (protos' & EP & LP & NP); [rewrite set_nth_len; assumption|assumption|].
    exists protos'. split; [exact EP|]. split; [rewrite LP; apply set_nth_len|].
    intros i pr' Hi. unfold load. cbn [filter fst]. fold (load kvs i). fold i0.
    assert (Hlt : (i0 < length protos)%nat) by (apply nth_error_Some; congruence).
    destruct (Nat.eqb_spec i0 i) as [->|Hne].
    + rewrite Hpr in Hi. inv Hi. rewrite (NP i _ (nth_set_same _ _ _ _ Hlt)). cbn [fst snd map]. rewrite <- !app_assoc. reflexivity.
    + apply NP. rewrite nth_set_other by assumption. exact Hi.
Qed.
Lemma distribute_nonempty : forall kvs protos protos', simple_distribute f n kvs protos = Ok protos' ->
  Forall (fun kv => fst kv <> []) kvs.
Proof using.
  induction kvs as [|[k v] kvs IH]; intros protos protos' H; constructor; unfold simple_distribute in *; cbn [foldM fst] in H.
  - bind_inv H. bind_inv Hb. apply check_ok in Hb0. destruct k; [discriminate|discriminate].
  - bind_inv H. eapply IH. exact H.
Qed.

Lemma first_load : forall kvs q, first_value (load kvs (bucket sha seed n q 0)) q = first_value kvs q.
Proof using.
  clear. induction kvs as [|[k v] kvs IH]; intros q; [reflexivity|]. unfold load. cbn [filter fst]. fold (load kvs (bucket sha seed n q 0)).
  rewrite first_value_cons. destruct (key_eqb_spec k q) as [->|Hne].
  - rewrite Nat.eqb_refl, first_value_cons, key_eqb_refl. reflexivity.
  - destruct (Nat.eqb _ _); [|apply IH]. rewrite first_value_cons. destruct (key_eqb_spec k q); [congruence|apply IH].
Qed.
Lemma search_ok : forall l pre q, simple_search (map fst l) (length pre) (pre ++ map snd l) q = Ok (first_value l q).
Proof using.
  clear. induction l as [|[k v] l IH]; intros pre q; [reflexivity|]. cbn [map fst snd simple_search]. rewrite first_value_cons.
  destruct (key_eqb_spec k q) as [->|Hne].
  - rewrite compare_refl. unfold at_or_ub. rewrite nth_error_app2 by apply Nat.le_refl. rewrite Nat.sub_diag. reflexivity.
  - specialize (IH (pre ++ [v]) q). rewrite app_length, <- app_assoc in IH. cbn [length app] in IH. rewrite Nat.add_1_r in IH.
    destruct (compare_bytes k q) eqn:C; [apply compare_eq in C; congruence|exact IH..].
Qed.
End SimpleBuild.

Record ssim (b : simple_builder) (g : gsparse simple_params) : Prop := {
  ss_p : sb_params b = gs_params g;
  ss_d : sb_built b = false -> sb_dense b = None \/ sb_dense b = Some new_builder;
  ss_r : sb_built b = false -> sb_records b = gs_records g;
  ss_b : sb_built b = gs_built g
}.
Lemma sstep_sim : forall b g o, ssim b g -> ssim (sstep b o) (gsstep g o).
Proof.
  intros b g o [H1 H2 H4 H5]. destruct o as [kv| |p|d| |lo]; cbn [sstep gsstep].
  - constructor; cbn; auto. intros E. rewrite H4 by exact E. reflexivity.
  - constructor; cbn; auto. intros _. destruct (sb_dense b); cbn; auto.
  - constructor; cbn; auto.
  - constructor; cbn; auto. destruct d; cbn; auto.
  - constructor; cbn; auto. intros E. destruct (H2 E) as [-> | ->]; cbn; auto.
  - unfold simple_after_build. destruct (sb_built b) eqn:E; constructor; cbn; auto; intros; congruence.
Qed.
Lemma srun_sim : forall ops, ssim (srun ops) (gsrun ops).
Proof.
  intros ops. unfold srun, gsrun.
  assert (H : forall b g, ssim b g -> ssim (fold_left sstep ops b) (fold_left gsstep ops g)).
  { induction ops as [|o ops IH]; intros b g H; cbn [fold_left]; [assumption|]. apply IH, sstep_sim, H. }
  apply H. constructor; cbn; auto.
Qed.

Lemma serialize_all : forall protos d, Forall (fun pr => N.of_nat (length (serialize_bucket pr)) < 2 ^ 31) protos ->
  foldM (fun d proto => _ <- check (N.of_nat (length (serialize_bucket proto)) <? 2 ^ 31) INTERNAL ;;
                        Ok (insert d (serialize_bucket proto))) protos d
  = Ok (fold_left insert (map serialize_bucket protos) d).
Proof.
  induction protos as [|pr protos IH]; intros d HF; [reflexivity|]. fcons HF H HF. cbn [foldM map fold_left].
  destruct (N.ltb_spec (N.of_nat (length (serialize_bucket pr))) (2 ^ 31)); [|lia]. cbn [check bind]. apply IH. assumption.
Qed.
Lemma serialize_all_inv : forall protos d d',
  foldM (fun d proto => _ <- check (N.of_nat (length (serialize_bucket proto)) <? 2 ^ 31) INTERNAL ;;
                        Ok (insert d (serialize_bucket proto))) protos d = Ok d' ->
  Forall (fun pr => N.of_nat (length (serialize_bucket pr)) < 2 ^ 31) protos.
Proof.
  induction protos as [|pr protos IH]; intros d d' H; constructor; cbn [foldM] in H; bind_inv H.
  - bind_inv Hb. apply check_ok in Hb0. apply N.ltb_lt, Hb0.
  - eapply IH. exact H.
Qed.

Section SimpleBuildAll.
Variables (sha : bytes -> bytes) (a : alloc) (b : simple_builder) (g : gsparse simple_params).
Let p := gs_params g.
Let n := to_int32 (sp_buckets p).
Let seed := hf_seed (sp_hash p).
Hypothesis Hsha : forall x, length (sha x) = 32%nat.
Hypothesis Hsim : ssim b g.
Hypothesis Hnb : gs_built g = false.
Hypothesis Ha : alloc_ok a.

(** The serialized buckets. *)
Definition simple_records : list bytes :=
  map (fun i => serialize_bucket (proto_of (load sha seed n (gs_records g) i))) (seq 0 (Z.to_nat n)).
Definition simple_params_ok : Prop :=
  (0 < n)%Z /\ seed <> [] /\ hf_family (sp_hash p) = 1%Z /\ Forall (fun kv => fst kv <> []) (gs_records g).

Lemma simple_build_total : simple_params_ok -> Forall (fun r => N.of_nat (length r) < 2 ^ 31) simple_records ->
  exists d, simple_build sha a b = Ok d /\ holds (sd_dense d) simple_records /\
    sd_bits d = n /\ sd_size d = to_int32 (Z.of_nat (length (gs_records g))).
Proof using Hsha Hsim Hnb Ha.
  intros (Pn0 & Ps & Pf & Pe) HS. destruct Hsim as [S1 S2 S4 S5]. specialize (S2 (eq_trans S5 Hnb)). specialize (S4 (eq_trans S5 Hnb)).
  assert (Pn : (0 < n < 2147483648)%Z) by (split; [assumption|]; unfold n, to_int32; clear; lia).
  unfold simple_build. rewrite S5, Hnb. cbn [fst]. unfold simple_build_db. rewrite S1, S4. fold p n.
  assert (E1 : negb (n <=? 0)%Z = true) by (clear - Pn; lia). rewrite E1. cbn [check bind].
  assert (Hfam : hash_family_from_config sha (sp_hash p) = Ok (wrap_with_seed (sha256_hash_family sha) seed)).
  { unfold hash_family_from_config. fold seed. rewrite Pf. destruct seed; [congruence|]. reflexivity. }
  rewrite Hfam. cbn [bind]. unfold create_hash_functions. change (Z.to_nat 1) with 1%nat. change (1 <? 0)%Z with false. cbn [negb check bind seq map at_or_ub nth_error].
  change (N.of_nat 0) with 0. unfold wrap_with_seed, sha256_hash_family.
  destruct (distribute_ok sha seed n Hsha Pn (gs_records g) (repeat ([], []) (Z.to_nat n)) (repeat_length _ _) Pe) as (protos & EP & LP & NP).
  assert (HP : protos = map (fun i => proto_of (load sha seed n (gs_records g) i)) (seq 0 (Z.to_nat n))).
  { apply nth_error_ext. intros i. rewrite repeat_length in LP. destruct (Nat.lt_ge_cases i (Z.to_nat n)) as [Hi|Hi].
    - rewrite nth_error_map, nth_error_seq by assumption. cbn [option_map Nat.add].
      rewrite (NP i ([], [])) by (apply nth_error_repeat; assumption). reflexivity.
    - rewrite (proj2 (nth_error_None protos i)) by (rewrite LP; assumption). symmetry. apply nth_error_None. rewrite map_length, seq_length. assumption. }
  match goal with |- context [simple_distribute ?f _ _ _] => change (simple_distribute f n (gs_records g) (repeat ([], []) (Z.to_nat n)))
    with (simple_distribute (sha256_hash_function sha (seed ++ str_cat 0)) n (gs_records g) (repeat ([], []) (Z.to_nat n))) end.
  rewrite EP. cbn [bind].
  assert (HR : map serialize_bucket protos = simple_records) by (rewrite HP, map_map; reflexivity).
  assert (HS' : Forall (fun pr => N.of_nat (length (serialize_bucket pr)) < 2 ^ 31) protos).
  { rewrite <- HR in HS. rewrite Forall_map in HS. exact HS. }
  rewrite serialize_all by assumption. cbn [bind]. rewrite HR.
  assert (ON : or_new (sb_dense b) = new_builder) by (destruct S2 as [-> | ->]; reflexivity). rewrite ON.
  assert (HC : N.of_nat (16 * total_blocks simple_records) < 2 ^ 62).
  { assert (HX : forall l, Forall (fun r : bytes => N.of_nat (length r) < 2 ^ 31) l -> N.of_nat (16 * total_blocks l) <= N.of_nat (length l) * 2 ^ 31).
    { clear. intros l H. induction H as [|r l H _ IH]; [discriminate|]. change (total_blocks (r :: l)) with (blocks (length r) + total_blocks l)%nat.
      cbn [length]. change (2 ^ 31) with 2147483648 in *. unfold blocks. lia. }
    specialize (HX _ HS). unfold simple_records in HX at 2. rewrite map_length, seq_length in HX.
    change (2 ^ 31) with 2147483648 in HX. change (2 ^ 62) with 4611686018427387904.
    eapply N.le_lt_trans; [exact HX|]. clear - Pn. lia. }
  destruct (dense_built a _ Ha HC) as (dd & ED & DD). rewrite ED. cbn [bind]. eexists. split; [reflexivity|]. cbn [sd_dense sd_bits sd_size]. auto.
Qed.
Lemma simple_build_params : forall d, simple_build sha a b = Ok d ->
  simple_params_ok /\ Forall (fun r => N.of_nat (length r) < 2 ^ 31) simple_records.
Proof using Hsha Hsim Hnb.
  intros d H. destruct Hsim as [S1 S2 S4 S5]. specialize (S2 (eq_trans S5 Hnb)). specialize (S4 (eq_trans S5 Hnb)).
  unfold simple_build in H. rewrite S5, Hnb in H. unfold simple_build_db in H. rewrite S1, S4 in H. fold p n in H.
  bind_inv H. bind_inv H. bind_inv H. bind_inv H. bind_inv H. bind_inv H. clear H. apply check_ok in Hb.
  destruct (functions_eq _ _ _ _ _ Hb0 Hb1) as (Ef & Hk & Hs & Hf).
  change (Z.to_nat 1) with 1%nat in Ef. cbn [seq map] in Ef. subst a2. cbn [at_or_ub nth_error] in Hb2. injection Hb2 as <-. fold seed in Hb3, Hs.
  change (N.of_nat 0) with 0 in Hb3.
  assert (Pn0 : (0 < n)%Z) by (clear - Hb; lia).
  assert (Pn : (0 < n < 2147483648)%Z) by (split; [assumption|]; unfold n, to_int32; clear; lia).
  pose proof (distribute_nonempty sha seed n _ _ _ Hb3) as Hne.
  split; [repeat split; auto|].
  destruct (distribute_ok sha seed n Hsha Pn (gs_records g) (repeat ([], []) (Z.to_nat n)) (repeat_length _ _) Hne) as (protos & EP & LP & NP).
  rewrite Hb3 in EP. inv EP.
  assert (HP : protos = map (fun i => proto_of (load sha seed n (gs_records g) i)) (seq 0 (Z.to_nat n))).
  { apply nth_error_ext. intros i. rewrite repeat_length in LP. destruct (Nat.lt_ge_cases i (Z.to_nat n)) as [Hi|Hi].
    - rewrite nth_error_map, nth_error_seq by assumption. cbn [option_map Nat.add].
      rewrite (NP i ([], [])) by (apply nth_error_repeat; assumption). reflexivity.
    - rewrite (proj2 (nth_error_None protos i)) by (rewrite LP; assumption). symmetry. apply nth_error_None. rewrite map_length, seq_length. assumption. }
  assert (HR : map serialize_bucket protos = simple_records) by (rewrite HP, map_map; reflexivity).
  rewrite <- HR, Forall_map. eapply serialize_all_inv. exact Hb4.
Qed.
End SimpleBuildAll.
