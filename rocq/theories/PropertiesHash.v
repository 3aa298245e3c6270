(** Properties of pir/hashing: C37 (cuckoo table), C42 (simple table), C43 (multiple choice
    table) and C44 (SHA-256 hash functions). *)
From Coq Require Import List NArith ZArith Lia Bool Permutation ZifyBool ZifyNat ZifyN.
From Verif Require Import Base ListUtil HashModel HashSpec HashProofs.
Import ListNotations.
Open Scope N_scope.
Ltac Zify.zify_post_hook ::= Z.div_mod_to_equations.

(** Hash functions for the examples: the little-endian value of the string plus [k], and a
    constant function. *)
Definition xh (k : Z) : hash_function := fun x n => Ok ((Z.of_N (le_decode x) + k) mod n)%Z.
Lemma xh_ok : forall n k, (0 < n)%Z -> hashes_into n (xh k).
Proof. intros n k Hn x. eexists. split; [reflexivity|]. apply Z.mod_pos_bound, Hn. Qed.

Lemma hits_le : forall fs n x i, (hits fs n x i <= length fs)%nat.
Proof.
  intros fs n x i. unfold hits. induction fs as [|f fs IH]; [reflexivity|]. cbn [filter].
  destruct (match f x n with Ok v => (v =? Z.of_nat i)%Z | _ => false end); cbn [length]; lia.
Qed.

(** ** C37: the cuckoo table *)

(** For all hash functions into the buckets, all sequences of insertions, all random choices and all
    limits: every call returns OK or INTERNAL; every element is stored exactly once or dropped, one
    for every INTERNAL; the elements of the table are in a bucket of one of their hash functions; the
    stash is within its limit; and without a limit no call fails. *)
Theorem C37_cuckoo_table : forall fs n relocations limit rnd c xs rs c',
  cuckoo_create fs n relocations limit = Ok c ->
  Forall (hashes_into n) fs ->
  (forall k, (rnd k < length fs)%nat) ->
  insert_all (cuckoo_insert rnd) c xs = (rs, c') ->
  length rs = length xs /\
  Forall (fun r => r = Ok tt \/ r = Err INTERNAL) rs /\
  (limit = None -> Forall (fun r => r = Ok tt) rs) /\
  (exists dropped, length dropped = failures rs /\
     Permutation xs (dropped ++ elements (ck_table c') ++ ck_stash c')) /\
  Z.of_nat (length (ck_table c')) = n /\
  (forall i e, nth_error (ck_table c') i = Some (Some e) -> candidate fs n e i) /\
  (forall s, limit = Some s -> (Z.of_nat (length (ck_stash c')) <= s)%Z).
Proof.
  intros fs n relocations limit rnd c xs rs c' Hc Hfs Hrnd H.
  destruct (cuckoo_create_inv _ _ _ _ _ Hc) as (I & Ht & Hs & _ & Hn & _ & _).
  destruct (inserts_ok fs n relocations limit rnd Hfs Hrnd Hn xs c I)
    as (rs' & c1 & dropped & E & I' & Hl & Hr & Hno & Hd & P).
  rewrite H in E. inv E.
  split; [exact Hl|]. split; [exact Hr|]. split; [exact Hno|].
  split.
  - exists dropped. split; [exact Hd|]. rewrite Ht, Hs, elements_repeat_none, !app_nil_r in P. exact P.
  - split; [rewrite (ci_len _ _ _ _ _ I'); lia|]. split; apply I'.
Qed.
Print Assumptions C37_cuckoo_table.

(** A failing call leaves the stash unchanged and full.  The element it drops need not be the one
    passed to it. *)
Theorem C37_failed_insert : forall fs n relocations limit rnd c xs rs c1 x c2,
  cuckoo_create fs n relocations limit = Ok c ->
  Forall (hashes_into n) fs -> (forall k, (rnd k < length fs)%nat) ->
  insert_all (cuckoo_insert rnd) c xs = (rs, c1) ->
  cuckoo_insert rnd c1 x = (Err INTERNAL, c2) ->
  ck_stash c2 = ck_stash c1 /\ limit = Some (Z.of_nat (length (ck_stash c1))) /\
  exists dropped, Permutation (x :: elements (ck_table c1)) (dropped :: elements (ck_table c2)).
Proof.
  intros fs n relocations limit rnd c xs rs c1 x c2 Hc Hfs Hrnd H Hx.
  destruct (cuckoo_create_inv _ _ _ _ _ Hc) as (I & Ht & Hs & _ & Hn & _ & _).
  destruct (inserts_ok fs n relocations limit rnd Hfs Hrnd Hn xs c I)
    as (rs' & c1' & dropped & E & I' & _). rewrite H in E. inv E.
  destruct (insert_ok fs n relocations limit rnd Hfs Hrnd Hn c1' x I') as (c' & _ & [(E & _) | (E & A & B & D)]);
    rewrite Hx in E; inv E. auto.
Qed.
Print Assumptions C37_failed_insert.

Definition xc_fs := [xh 0; xh 1].
Definition xc_rnd (k : nat) : nat := Nat.modulo k 2.
Definition xc_table : cuckoo := {|
  ck_buckets := 3; ck_relocations := 4; ck_stash_limit := Some 1%Z; ck_functions := xc_fs;
  ck_table := [None; None; None]; ck_stash := []; ck_draws := 0 |}.
Definition xc_inputs : list bytes := [[0]; [1]; [3]; [6]; [9]].

(** Five elements, three buckets and a stash of one element: the last call fails, and drops
    the element that the first call had inserted. *)
Example C37_nonvacuous :
  cuckoo_create xc_fs 3 4 (Some 1%Z) = Ok xc_table /\
  Forall (hashes_into 3) xc_fs /\ (forall k, (xc_rnd k < length xc_fs)%nat) /\
  (let '(rs, c) := insert_all (cuckoo_insert xc_rnd) xc_table xc_inputs in
   rs = [Ok tt; Ok tt; Ok tt; Ok tt; Err INTERNAL] /\
   elements (ck_table c) ++ ck_stash c = [[6]; [9]; [1]; [3]]).
Proof.
  split; [reflexivity|]. split; [repeat constructor; apply xh_ok; lia|].
  split; [intros k; apply Nat.mod_upper_bound; discriminate|].
  vm_compute. split; reflexivity.
Qed.

(** ** C42: the simple table *)

(** The buckets contain exactly the accepted elements that hash to them, in the order of
    insertion (once for every hash function that maps the element to the bucket). *)
Theorem C42_contents : forall fs n limit b xs rs b',
  simple_create fs n limit = Ok b -> Forall (hashes_into n) fs ->
  insert_all simple_insert b xs = (rs, b') ->
  length rs = length xs /\ Forall (fun r => r = Ok tt \/ r = Err INTERNAL) rs /\
  Z.of_nat (length (bk_table b')) = n /\
  forall i, (Z.of_nat i < n)%Z ->
    nth i (bk_table b') [] = flat_map (fun x => repeat x (hits fs n x i)) (accepted xs rs).
Proof.
  intros fs n limit b xs rs b' Hc Hfs H.
  destruct (buckets_create_inv _ _ _ _ _ Hc) as (I & Ht & Hn & _ & _).
  destruct (simple_inserts_ok fs n limit Hfs Hn xs b I) as (rs' & b1 & E & I' & Hl & Hr & Hb).
  rewrite H in E. inv E.
  split; [exact Hl|]. split; [exact Hr|]. split; [rewrite (bi_len _ _ _ _ I'); lia|].
  intros i Hi. rewrite Hb by lia. rewrite Ht, nth_repeat. reflexivity.
Qed.
Print Assumptions C42_contents.

(** Each call either appends the element to the bucket of every hash function or returns INTERNAL
    and leaves the table unchanged; the latter happens exactly if one of the buckets is full. *)
Theorem C42_all_or_nothing : forall fs n limit b xs rs b1 x r b2,
  simple_create fs n limit = Ok b -> Forall (hashes_into n) fs ->
  insert_all simple_insert b xs = (rs, b1) ->
  simple_insert b1 x = (r, b2) ->
  let is_full i := exists s, limit = Some s /\ (s <= Z.of_nat (length (nth i (bk_table b1) [])))%Z in
  (r = Ok tt /\ (forall i, candidate fs n x i -> ~ is_full i) /\
   forall i, (Z.of_nat i < n)%Z ->
     nth i (bk_table b2) [] = nth i (bk_table b1) [] ++ repeat x (hits fs n x i)) \/
  (r = Err INTERNAL /\ b2 = b1 /\ exists i, candidate fs n x i /\ is_full i).
Proof.
  intros fs n limit b xs rs b1 x r b2 Hc Hfs H Hx is_full.
  destruct (buckets_create_inv _ _ _ _ _ Hc) as (I & Ht & Hn & _ & _).
  destruct (simple_inserts_ok fs n limit Hfs Hn xs b I) as (rs' & b1' & E & I' & _). rewrite H in E. inv E.
  destruct (simple_insert_ok fs n limit Hfs Hn b1' x I') as [(b' & E & _ & Hf & N) | (E & Hf)]; rewrite Hx in E; inv E.
  - left. split; [reflexivity|]. split; [exact Hf|]. intros i Hi. apply N. lia.
  - right. split; [reflexivity|]. split; [reflexivity|]. exact Hf.
Qed.
Print Assumptions C42_all_or_nothing.

(** What holds of the maximum bucket size: it is respected if no two hash functions map an element
    to the same bucket; in general it is exceeded by at most one less than the number of hash
    functions.  Missing for the full claim: the second bound is attained, see [C42_bound_refuted]. *)
Theorem C42_bound_partial : forall fs n max b xs rs b',
  simple_create fs n (Some max) = Ok b -> Forall (hashes_into n) fs ->
  insert_all simple_insert b xs = (rs, b') ->
  (forall i, (Z.of_nat i < n)%Z ->
     Z.of_nat (length (nth i (bk_table b') [])) <= max + Z.of_nat (length fs) - 1)%Z /\
  ((forall x i, In x xs -> (hits fs n x i <= 1)%nat) ->
   forall i, (Z.of_nat i < n)%Z -> (Z.of_nat (length (nth i (bk_table b') [])) <= max)%Z).
Proof.
  intros fs n max b xs rs b' Hc Hfs H.
  destruct (buckets_create_inv _ _ _ _ _ Hc) as (I & Ht & Hn & Hk & Hs). specialize (Hs max eq_refl).
  split.
  - intros i Hi.
    pose proof (simple_bound fs n (Some max) Hfs Hn (Z.of_nat (length fs) - 1) xs b rs b' I ltac:(lia)) as W.
    assert (W' : within n (Some max) b' (Z.of_nat (length fs) - 1)).
    { apply W; [|intros s j Es Hj; inv Es; rewrite Ht, nth_repeat; cbn; lia|exact H].
      intros x j _. rewrite Zplus_minus. apply inj_le, hits_le. }
    specialize (W' max i eq_refl ltac:(lia)). rewrite <- Z.add_sub_assoc. exact W'.
  - intros Hx i Hi.
    assert (W' : within n (Some max) b' 0).
    { apply (simple_bound fs n (Some max) Hfs Hn 0 xs b rs b' I ltac:(lia)); [|intros s j Es Hj; inv Es; rewrite Ht, nth_repeat; cbn; lia|exact H].
      intros x j Hj. specialize (Hx x j Hj). lia. }
    specialize (W' max i eq_refl ltac:(lia)). rewrite Z.add_0_r in W'. exact W'.
Qed.
Print Assumptions C42_bound_partial.

(** The documented maximum can be exceeded: two hash functions that agree on an element store it
    twice in the same bucket after checking its size only before the first of them. *)
Theorem C42_bound_refuted : exists fs n max b xs rs b' i,
  simple_create fs n (Some max) = Ok b /\ Forall (hashes_into n) fs /\
  insert_all simple_insert b xs = (rs, b') /\ Forall (fun r => r = Ok tt) rs /\
  (Z.of_nat i < n)%Z /\ (max < Z.of_nat (length (nth i (bk_table b') [])))%Z.
Proof.
  exists [xh 0; xh 3], 3%Z, 1%Z. eexists. exists [[7]]. eexists. eexists. exists 1%nat.
  split; [reflexivity|]. split; [repeat constructor; apply xh_ok; lia|].
  split; [vm_compute; reflexivity|]. split; [repeat constructor|]. split; [lia|]. vm_compute. reflexivity.
Qed.
Print Assumptions C42_bound_refuted.

Example C42_nonvacuous :
  let fs := [xh 0; xh 1] in
  Forall (hashes_into 4) fs /\
  match simple_create fs 4 (Some 2%Z) with
  | Ok b =>
      let '(rs, b') := insert_all simple_insert b [[0]; [4]; [1]; [2]] in
      rs = [Ok tt; Ok tt; Err INTERNAL; Ok tt] /\
      bk_table b' = [[[0]; [4]]; [[0]; [4]]; [[2]]; [[2]]]
  | _ => False
  end.
Proof. split; [repeat constructor; apply xh_ok; lia|]. vm_compute. split; reflexivity. Qed.

(** ** C43: the multiple choice table *)

(** Each call stores the element once, in a candidate bucket of minimal load, or returns INTERNAL
    and leaves the table unchanged; the latter happens exactly if every candidate bucket is full. *)
Theorem C43_least_loaded : forall fs n limit b xs rs b1 x r b2,
  choice_create fs n limit = Ok b -> Forall (hashes_into n) fs ->
  insert_all choice_insert b xs = (rs, b1) ->
  choice_insert b1 x = (r, b2) ->
  let load i := length (nth i (bk_table b1) []) in
  let is_full i := exists s, limit = Some s /\ (s <= Z.of_nat (load i))%Z in
  (r = Ok tt /\ exists i, candidate fs n x i /\ ~ is_full i /\
     (forall j, candidate fs n x j -> (load i <= load j)%nat) /\
     length (bk_table b2) = length (bk_table b1) /\
     nth i (bk_table b2) [] = nth i (bk_table b1) [] ++ [x] /\
     forall j, j <> i -> nth j (bk_table b2) [] = nth j (bk_table b1) []) \/
  (r = Err INTERNAL /\ b2 = b1 /\ forall i, candidate fs n x i -> is_full i).
Proof.
  intros fs n limit b xs rs b1 x r b2 Hc Hfs H Hx load is_full.
  destruct (buckets_create_inv _ _ _ _ _ Hc) as (I & Ht & Hn & Hk & Hs).
  assert (Hne : fs <> []) by (intros ->; cbn in Hk; lia).
  assert (W : within n limit b 0).
  { intros s j Es Hj. rewrite Ht, nth_repeat. specialize (Hs s Es). cbn. lia. }
  destruct (choice_inserts_ok fs n limit Hfs Hn xs b I Hne W) as (rs' & b1' & E & I' & _). rewrite H in E. inv E.
  destruct (choice_insert_ok fs n limit Hfs Hn b1' x I' Hne) as (i & Hci & Hi & Hm & [(b' & E & _ & Hf & T) | (E & Hf)]); rewrite Hx in E; inv E.
  - left. split; [reflexivity|]. exists i. split; [exact Hci|]. split; [exact Hf|]. split; [exact Hm|]. rewrite T.
    split; [apply set_nth_len|].
    assert (Hl : (i < length (bk_table b1'))%nat) by (rewrite (bi_len _ _ _ _ I'); exact Hi).
    split.
    + apply nth_error_nth, nth_set_same, Hl.
    + intros j Hj. rewrite <- !nth_default_eq. unfold nth_default. rewrite nth_set_other by lia. reflexivity.
  - right. split; [reflexivity|]. split; [reflexivity|]. exact Hf.
Qed.
Print Assumptions C43_least_loaded.

(** After any sequence of insertions: exactly the accepted elements are stored, each in one of
    its candidate buckets, and no bucket exceeds the limit. *)
Theorem C43_contents : forall fs n limit b xs rs b',
  choice_create fs n limit = Ok b -> Forall (hashes_into n) fs ->
  insert_all choice_insert b xs = (rs, b') ->
  length rs = length xs /\ Forall (fun r => r = Ok tt \/ r = Err INTERNAL) rs /\
  Permutation (accepted xs rs) (concat (bk_table b')) /\
  (forall i e, In e (nth i (bk_table b') []) -> candidate fs n e i) /\
  (forall s i, limit = Some s -> (Z.of_nat i < n)%Z -> (Z.of_nat (length (nth i (bk_table b') [])) <= s)%Z).
Proof.
  intros fs n limit b xs rs b' Hc Hfs H.
  destruct (buckets_create_inv _ _ _ _ _ Hc) as (I & Ht & Hn & Hk & Hs).
  assert (Hne : fs <> []) by (intros ->; cbn in Hk; lia).
  assert (W : within n limit b 0).
  { intros s j Es Hj. rewrite Ht, nth_repeat. specialize (Hs s Es). cbn. lia. }
  destruct (choice_inserts_ok fs n limit Hfs Hn xs b I Hne W) as (rs' & b1 & E & I' & Hl & Hr & Hw & P & Q).
  rewrite H in E. inv E.
  split; [exact Hl|]. split; [exact Hr|]. split.
  - replace (concat (bk_table b)) with (@nil bytes) in P; [exact P|].
    rewrite Ht. clear. induction (Z.to_nat n); [reflexivity|exact IHn0].
  - split.
    + apply Q. intros i e. rewrite Ht, nth_repeat. intros [].
    + intros s i Es Hi. specialize (Hw s i Es ltac:(lia)). rewrite Z.add_0_r in Hw. exact Hw.
Qed.
Print Assumptions C43_contents.

Example C43_nonvacuous :
  let fs := [xh 0; xh 1; xh 5] in
  Forall (hashes_into 3) fs /\
  match choice_create fs 3 (Some 1%Z) with
  | Ok b =>
      let '(rs, b') := insert_all choice_insert b [[3]; [6]; [0]; [1]] in
      rs = [Ok tt; Ok tt; Ok tt; Err INTERNAL] /\ bk_table b' = [[[3]]; [[6]]; [[0]]]
  | _ => False
  end.
Proof. split; [repeat constructor; apply xh_ok; lia|]. vm_compute. split; reflexivity. Qed.

(** ** C44: SHA-256 hash functions *)

(** The result is the digest of seed || input, read as a little-endian integer, modulo [n]; in
    particular it is in [0, n). *)
Theorem C44_value : forall sha seed input n,
  (forall x, length (sha x) = 32%nat) -> (0 < n < 2147483648)%Z ->
  exists v, sha256_hash_function sha seed input n = Ok v /\
    v = (Z.of_N (le_decode (sha (seed ++ input))) mod n)%Z /\ (0 <= v < n)%Z.
Proof.
  intros sha seed input n Hl Hn. eexists. split; [apply sha256_value; [apply Hl|exact Hn]|].
  split; [reflexivity|]. apply Z.mod_pos_bound. lia.
Qed.
Print Assumptions C44_value.

Lemma digits_lead : forall fuel x acc, x < 10 ^ N.of_nat fuel -> x <> 0 ->
  exists d ds, digits_fuel fuel x acc = d :: ds /\ d <> 48.
Proof.
  induction fuel as [|fuel IH]; intros x acc Hx H0.
  - change (10 ^ N.of_nat 0) with 1 in Hx. lia.
  - cbn [digits_fuel]. destruct (N.eqb_spec (x / 10) 0) as [E|E].
    + exists (48 + x mod 10), acc. split; [reflexivity|].
      pose proof (N.div_mod x 10 ltac:(lia)) as HD. rewrite E in HD. lia.
    + apply IH; [|exact E]. rewrite Nat2N.inj_succ, N.pow_succ_r' in Hx. apply N.div_lt_upper_bound; lia.
Qed.
Lemma str_cat_lead : forall x, hd 0 (str_cat x) = 48 -> str_cat x = [48].
Proof.
  intros x H. destruct (N.eq_dec x 0) as [->|Hx]; [reflexivity|]. exfalso.
  destruct (digits_lead (N.to_nat (N.size x) + 1) x []) as (d & ds & E & Hd); [|exact Hx|].
  - rewrite Nat2N.inj_add, N2Nat.id. pose proof (N.size_gt x) as G.
    eapply N.lt_le_trans; [exact G|]. etransitivity; [apply (N.pow_le_mono_l 2 10); lia|].
    apply N.pow_le_mono_r; lia.
  - unfold str_cat in H. rewrite E in H. cbn [hd] in H. auto.
Qed.

(** The functions created from a configuration are determined by the digest of
    seed || index || input, where the index is written in decimal: function [i] uses exactly one
    string of digits that denotes [i], without leading zeros. *)
Theorem C44_family : forall sha config family k fs,
  (forall x, length (sha x) = 32%nat) ->
  hash_family_from_config sha config = Ok family ->
  create_hash_functions family k = Ok fs ->
  Z.of_nat (length fs) = k /\
  forall i f, nth_error fs i = Some f ->
  exists index, decimal index = N.of_nat i /\ index <> [] /\ Forall (fun d => 48 <= d < 58) index /\
    (hd 0 index = 48 -> index = [48]) /\
    forall input n, (0 < n < 2147483648)%Z ->
      f input n = Ok (Z.of_N (le_decode (sha (hf_seed config ++ index ++ input))) mod n)%Z.
Proof.
  intros sha config family k fs Hl Hf Hc. split; [apply (create_functions_length _ _ _ Hc)|].
  intros i f Hi. pose proof (create_functions_length _ _ _ Hc) as L.
  assert (Hik : (Z.of_nat i < k)%Z).
  { rewrite <- L. apply inj_lt, nth_error_Some. congruence. }
  rewrite (create_functions_nth _ _ _ i Hc Hik) in Hi. inv Hi.
  unfold hash_family_from_config in Hf. bind_inv Hf. bind_inv Hf. inv Hf.
  destruct (str_cat_spec (N.of_nat i)) as (D1 & D2 & D3).
  exists (str_cat (N.of_nat i)). split; [exact D1|]. split; [exact D3|]. split; [exact D2|].
  split; [apply str_cat_lead|]. intros input n Hn. unfold wrap_with_seed, sha256_hash_family.
  rewrite sha256_value by (try apply Hl; exact Hn). rewrite <- app_assoc. reflexivity.
Qed.
Print Assumptions C44_family.

(** Which configurations are accepted: those for SHA-256 with a seed. *)
Theorem C44_config : forall sha config,
  (hf_seed config <> [] /\ hf_family config = 1%Z /\ exists family, hash_family_from_config sha config = Ok family) \/
  ((hf_seed config = [] \/ hf_family config <> 1%Z) /\ hash_family_from_config sha config = Err INVALID_ARGUMENT).
Proof.
  intros sha config. unfold hash_family_from_config. destruct (hf_seed config) as [|s seed]; cbn [length Nat.eqb negb check bind].
  - right. auto.
  - destruct (Z.eqb_spec (hf_family config) 1); cbn [check bind]; [left|right; auto].
    split; [discriminate|]. split; [assumption|eauto].
Qed.
Print Assumptions C44_config.

Definition xs_sha (x : bytes) : bytes := le_encode 32 (le_decode x * 1000003 + 2 ^ 255).
Example C44_nonvacuous :
  (forall x, length (xs_sha x) = 32%nat) /\
  match hash_family_from_config xs_sha {| hf_family := 1; hf_seed := [1; 2; 3] |} with
  | Ok family =>
      match create_hash_functions family 12 with
      | Ok fs =>
          match nth_error fs 10 with
          | Some f => f [7; 8; 9] 1000%Z = Ok (Z.of_N (le_decode (xs_sha [1; 2; 3; 49; 48; 7; 8; 9]%N)) mod 1000)%Z
          | None => False
          end
      | _ => False
      end
  | _ => False
  end /\
  sha256_hash_function xs_sha [1; 2; 3] [7; 8; 9] 1000003%Z = Ok 578326%Z.
Proof. split; [intros; apply le_encode_length|]. vm_compute. split; reflexivity. Qed.
