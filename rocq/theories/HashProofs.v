(** Proofs about the hash functions and hash tables. *)
From Coq Require Import List NArith ZArith Lia Bool Permutation ZifyBool ZifyNat ZifyN.
From Verif Require Import Base ListUtil HashModel HashSpec.
Import ListNotations.
Open Scope N_scope.
Ltac Zify.zify_post_hook ::= Z.div_mod_to_equations.

Lemma atz_at : forall A (l : list A) i, (0 <= i)%Z -> atz_or_ub l i = at_or_ub l (Z.to_nat i).
Proof. intros A l i H. unfold atz_or_ub. destruct (Z.ltb_spec i 0); [lia | reflexivity]. Qed.

Lemma nth_set_same : forall A (l : list A) i x, (i < length l)%nat -> nth_error (set_nth l i x) i = Some x.
Proof.
  induction l as [|y l IH]; intros [|i] x H; cbn in *; try lia; [reflexivity|]. apply IH. lia.
Qed.
Lemma nth_set_other : forall A (l : list A) i j x, i <> j -> nth_error (set_nth l i x) j = nth_error l j.
Proof.
  induction l as [|y l IH]; intros [|i] [|j] x H; cbn; try reflexivity; try lia. apply IH. lia.
Qed.
Lemma set_nth_len : forall A (l : list A) i x, length (set_nth l i x) = length l.
Proof. induction l as [|y l IH]; intros [|i] x; cbn; [reflexivity..|]. rewrite IH. reflexivity. Qed.

(** * SHA-256 *)

Lemma sha_loop_app : forall fuel data ctx, sha_update_loop fuel data ctx = ctx ++ data.
Proof.
  induction fuel as [|fuel IH]; intros data ctx; [reflexivity|]. cbn [sha_update_loop].
  destruct (2 ^ 30 <? N.of_nat (length data)); [|reflexivity].
  rewrite IH. unfold sha_update. rewrite <- app_assoc, firstn_skipn. reflexivity.
Qed.
Lemma sha_update_app : forall data ctx, sha_update_with_data data ctx = ctx ++ data.
Proof. intros. apply sha_loop_app. Qed.

Lemma le_decode_app : forall a b, le_decode (a ++ b) = le_decode a + 256 ^ N.of_nat (length a) * le_decode b.
Proof.
  induction a as [|x a IH]; intros b; cbn [app le_decode length]; [change (N.of_nat 0) with 0; rewrite N.pow_0_r; lia|].
  rewrite IH, Nat2N.inj_succ, N.pow_succ_r'. ring.
Qed.

(** Long division with 64-bit digits. *)
Lemma long_division : forall h l1 l0 m, 0 < m -> m < P64 -> h < P128 -> l1 < P64 -> l0 < P64 ->
  (((h mod m) * P64 + l1) mod m * P64 + l0) mod m = (h * P128 + l1 * P64 + l0) mod m.
Proof.
  intros h l1 l0 m Hm Hm2 _ _ _.
  replace (h * P128 + l1 * P64 + l0) with ((h * P64 + l1) * P64 + l0) by lia.
  rewrite (N.add_mod ((h * P64 + l1) * P64)) by lia.
  rewrite (N.mul_mod (h * P64 + l1)) by lia.
  rewrite (N.add_mod (h * P64)) by lia.
  rewrite (N.mul_mod h) by lia.
  rewrite (N.add_mod _ l0) by lia.
  rewrite (N.mul_mod (((h mod m) * P64 + l1) mod m)) by lia.
  rewrite (N.add_mod ((h mod m) * P64)) by lia.
  rewrite (N.mul_mod (h mod m)) by lia.
  rewrite !N.mod_mod by lia. reflexivity.
Qed.

Lemma sha256_value : forall sha seed input n,
  length (sha (seed ++ input)) = 32%nat -> (0 < n < 2147483648)%Z ->
  sha256_hash_function sha seed input n = Ok (Z.of_N (le_decode (sha (seed ++ input))) mod n)%Z.
Proof.
  intros sha seed input n Hl Hn. unfold sha256_hash_function.
  rewrite !sha_update_app. cbn [app].
  set (d := sha (seed ++ input)) in *.
  set (hi := le_decode (firstn 16 (skipn 16 d))). set (lo := le_decode (firstn 16 d)).
  assert (Hd : le_decode d = lo + P128 * hi).
  { rewrite <- (firstn_skipn 16 d) at 1. rewrite le_decode_app. fold lo.
    rewrite firstn_length_le by (rewrite Hl; lia). change (256 ^ N.of_nat 16) with P128.
    unfold hi. rewrite (firstn_all2 (skipn 16 d)) by (rewrite skipn_length, Hl; lia). reflexivity. }
  assert (Hlo : lo < P128).
  { pose proof (le_decode_bound (firstn 16 d)) as B. rewrite firstn_length_le in B by (rewrite Hl; lia).
    exact B. }
  assert (Hhi : hi < P128).
  { pose proof (le_decode_bound (firstn 16 (skipn 16 d))) as B.
    rewrite firstn_length_le in B by (rewrite skipn_length, Hl; lia). exact B. }
  clearbody lo hi.
  assert (Hm : Z.to_N (n mod Z.of_N P128) = Z.to_N n) by (f_equal; apply Z.mod_small; lia).
  set (m := Z.to_N n) in *. assert (Hm0 : 0 < m < 2147483648) by lia.
  assert (MI : forall x, mod_int x n = Ok (x mod m)).
  { intros x. unfold mod_int. rewrite Hm. destruct (N.eqb_spec m 0); [lia | reflexivity]. }
  rewrite MI. cbn [bind]. rewrite MI. cbn [bind]. rewrite MI. cbn [bind].
  pose proof (N.mod_lt hi m ltac:(lia)) as R1.
  assert (E1 : forall r l, r < m -> l < P64 -> mk128 (lo64 r) l = r * P64 + l).
  { intros r l Hr Hlr. unfold mk128, lo64. rewrite !(N.mod_small r) by lia. rewrite (N.mod_small l) by lia. reflexivity. }
  assert (H1 : hi64 lo < P64) by (apply N.mod_lt; lia).
  assert (H0 : lo64 lo < P64) by (apply N.mod_lt; lia).
  rewrite (E1 (hi mod m)) by assumption.
  rewrite E1 by (try assumption; apply N.mod_lt; lia).
  rewrite long_division by lia.
  replace (hi * P128 + hi64 lo * P64 + lo64 lo) with (le_decode d)
    by (rewrite Hd; unfold hi64, lo64; rewrite (N.mod_small (lo / P64)) by (clear - Hlo; lia); clear; lia).
  f_equal.
  replace (Z.of_N (le_decode d mod m)) with (Z.of_N (le_decode d) mod n)%Z
    by (rewrite N2Z.inj_mod; unfold m; rewrite Z2N.id by lia; reflexivity).
  pose proof (Z.mod_pos_bound (Z.of_N (le_decode d)) n ltac:(lia)) as B.
  unfold to_int32. rewrite Z.mod_small by (clear - B Hn; lia). apply Z.add_simpl_r.
Qed.

(** * Decimal indices *)

Lemma decimal_app : forall a acc b,
  fold_left (fun acc d => acc * 10 + (d - 48)) (a ++ b) acc
  = fold_left (fun acc d => acc * 10 + (d - 48)) b (fold_left (fun acc d => acc * 10 + (d - 48)) a acc).
Proof. intros. apply fold_left_app. Qed.

Lemma digits_spec : forall fuel x acc, x < 10 ^ N.of_nat fuel -> (0 < fuel)%nat ->
  exists ds, digits_fuel fuel x acc = ds ++ acc /\ decimal ds = x /\ Forall (fun d => 48 <= d < 58) ds.
Proof.
  induction fuel as [|fuel IH]; intros x acc Hx Hf; [lia|]. cbn [digits_fuel].
  assert (Hd : 48 <= 48 + x mod 10 < 58) by (pose proof (N.mod_lt x 10 ltac:(lia)); lia).
  destruct (N.eqb_spec (x / 10) 0) as [E|E].
  - exists [48 + x mod 10]. split; [reflexivity|]. split; [|constructor; auto].
    unfold decimal. cbn [fold_left]. lia.
  - rewrite Nat2N.inj_succ, N.pow_succ_r' in Hx.
    assert (Hq : x / 10 < 10 ^ N.of_nat fuel) by (apply N.div_lt_upper_bound; lia).
    destruct fuel as [|fuel']. { change (N.of_nat 0) with 0 in Hq. rewrite N.pow_0_r in Hq. lia. }
    destruct (IH (x / 10) ((48 + x mod 10) :: acc) Hq ltac:(lia)) as (ds & E1 & E2 & E3).
    exists (ds ++ [48 + x mod 10]). rewrite E1. split; [rewrite <- app_assoc; reflexivity|].
    split; [|apply Forall_app; auto].
    unfold decimal in *. rewrite decimal_app, E2. cbn [fold_left]. lia.
Qed.

Lemma str_cat_spec : forall x, decimal (str_cat x) = x /\ Forall (fun d => 48 <= d < 58) (str_cat x) /\ str_cat x <> [].
Proof.
  intros x. unfold str_cat.
  destruct (digits_spec (N.to_nat (N.size x) + 1) x []) as (ds & E1 & E2 & E3); [|lia|].
  - rewrite Nat2N.inj_add, N2Nat.id. pose proof (N.size_gt x) as G.
    eapply N.lt_le_trans; [exact G|]. etransitivity; [apply (N.pow_le_mono_l 2 10); lia|].
    apply N.pow_le_mono_r; lia.
  - rewrite E1, app_nil_r. split; [exact E2|]. split; [exact E3|].
    intros E. subst ds. rewrite Nat.add_1_r in E1. cbn [digits_fuel] in E1.
    destruct (x / 10 =? 0); [discriminate|].
    destruct (N.to_nat (N.size x)) as [|f]; [discriminate|].
    revert E1. generalize (x / 10) (48 + x mod 10). clear.
    assert (G : forall k y acc, acc <> [] -> digits_fuel k y acc <> []).
    { induction k as [|k IH]; intros y acc H; cbn [digits_fuel]; [exact H|].
      destruct (y / 10 =? 0); [discriminate|]. apply IH. discriminate. }
    intros y d E. apply (G (S f) y [d]); [discriminate | exact E].
Qed.

Lemma create_functions_nth : forall family k fs i, create_hash_functions family k = Ok fs ->
  (Z.of_nat i < k)%Z -> nth_error fs i = Some (family (str_cat (N.of_nat i))).
Proof.
  intros family k fs i H Hi. unfold create_hash_functions in H. bind_inv H. inv H.
  rewrite nth_error_map, nth_error_seq by lia. reflexivity.
Qed.
Lemma create_functions_length : forall family k fs, create_hash_functions family k = Ok fs ->
  Z.of_nat (length fs) = k.
Proof.
  intros family k fs H. unfold create_hash_functions in H. bind_inv H. inv H.
  rewrite map_length, seq_length. apply check_ok in Hb. lia.
Qed.

(** * Cuckoo table *)

Lemma elements_set_empty : forall t i e, nth_error t i = Some None ->
  Permutation (e :: elements t) (elements (set_nth t i (Some e))).
Proof.
  induction t as [|s t IH]; intros [|i] e H; cbn in H; try discriminate.
  - inversion H; subst. reflexivity.
  - cbn [set_nth]. unfold elements in *. cbn [flat_map].
    destruct s as [x|]; cbn [app]; [|apply IH, H].
    rewrite perm_swap. constructor. apply IH, H.
Qed.
Lemma elements_set_full : forall t i e x, nth_error t i = Some (Some x) ->
  Permutation (e :: elements t) (x :: elements (set_nth t i (Some e))).
Proof.
  induction t as [|s t IH]; intros [|i] e x H; cbn in H; try discriminate.
  - inversion H; subst. cbn [set_nth]. unfold elements. cbn [flat_map app]. apply perm_swap.
  - cbn [set_nth]. unfold elements in *. cbn [flat_map].
    destruct s as [y|]; cbn [app]; [|apply IH, H].
    rewrite perm_swap. rewrite (perm_swap y x). constructor. apply IH, H.
Qed.
Lemma elements_repeat_none : forall n, elements (repeat None n) = [].
Proof. induction n; [reflexivity|exact IHn]. Qed.

(** The invariant of a table with functions [fs], [n] buckets and stash limit [m]. *)
Record cuckoo_inv (fs : list hash_function) (n r : Z) (m : option Z) (c : cuckoo) : Prop := {
  ci_fs : ck_functions c = fs;
  ci_n : ck_buckets c = n;
  ci_r : ck_relocations c = r;
  ci_m : ck_stash_limit c = m;
  ci_len : length (ck_table c) = Z.to_nat n;
  ci_placed : forall i e, nth_error (ck_table c) i = Some (Some e) -> candidate fs n e i;
  ci_stash : forall s, m = Some s -> (Z.of_nat (length (ck_stash c)) <= s)%Z
}.

Section Cuckoo.
Variables (fs : list hash_function) (n r : Z) (m : option Z) (rnd : nat -> nat).
Hypothesis Hfs : Forall (hashes_into n) fs.
Hypothesis Hrnd : forall k, (rnd k < length fs)%nat.
Hypothesis Hn : (0 < n)%Z.

Lemma slot_ok : forall c x, cuckoo_inv fs n r m c ->
  exists i slot, cuckoo_slot rnd c x = Ok (Z.of_nat i, slot) /\ nth_error (ck_table c) i = Some slot /\
    candidate fs n x i /\ (i < length (ck_table c))%nat.
Proof using Hfs Hrnd Hn.
  intros c x I. unfold cuckoo_slot. rewrite (ci_fs _ _ _ _ _ I).
  destruct (at_or_ub_lt _ fs (rnd (ck_draws c)) (Hrnd _)) as [f Hf]. rewrite Hf. cbn [bind].
  apply at_or_ub_ok, nth_error_In in Hf.
  destruct (proj1 (Forall_forall _ _) Hfs f Hf x) as (v & Ev & Bv).
  rewrite (ci_n _ _ _ _ _ I), Ev. cbn [bind]. rewrite atz_at by lia.
  pose proof (ci_len _ _ _ _ _ I) as L.
  assert (Lv : (Z.to_nat v < length (ck_table c))%nat) by lia.
  destruct (at_or_ub_lt _ _ _ Lv) as [s Es]. rewrite Es. cbn [bind].
  apply at_or_ub_ok in Es. exists (Z.to_nat v), s. rewrite Z2Nat.id by lia.
  split; [reflexivity|]. split; [exact Es|]. split; [|exact Lv].
  exists f. split; [exact Hf|]. rewrite Z2Nat.id by lia. exact Ev.
Qed.

Lemma inv_set : forall c x i, cuckoo_inv fs n r m c -> candidate fs n x i -> (i < length (ck_table c))%nat ->
  cuckoo_inv fs n r m (with_table (with_draw c) (set_nth (ck_table c) i (Some x))).
Proof using Hfs Hrnd Hn.
  intros c x i [] Hc Hi. constructor; cbn; try assumption.
  - rewrite set_nth_len. assumption.
  - intros j e Hj. destruct (Nat.eq_dec i j) as [->|Hne].
    + rewrite nth_set_same in Hj by assumption. inversion Hj; subst. assumption.
    + rewrite nth_set_other in Hj by assumption. apply ci_placed0. assumption.
Qed.

Lemma loop_ok : forall k c x, cuckoo_inv fs n r m c ->
  exists left c', cuckoo_loop rnd k c x = (Ok left, c') /\ cuckoo_inv fs n r m c' /\
    ck_stash c' = ck_stash c /\
    Permutation (x :: elements (ck_table c))
      (elements (ck_table c') ++ match left with Some e => [e] | None => [] end).
Proof using Hfs Hrnd Hn.
  induction k as [|k IH]; intros c x I; cbn [cuckoo_loop].
  - exists (Some x), c. repeat split; try assumption; try apply I.
    apply Permutation_cons_append.
  - destruct (slot_ok c x I) as (i & slot & E & Hs & Hc & Hi). rewrite E, Nat2Z.id.
    pose proof (inv_set c x i I Hc Hi) as I'.
    destruct slot as [y|].
    + destruct (IH _ y I') as (left & c' & E' & I'' & Es & P).
      exists left, c'. split; [exact E'|]. split; [exact I''|]. split; [exact Es|].
      etransitivity; [apply elements_set_full, Hs|]. exact P.
    + eexists None, _. split; [reflexivity|]. split; [exact I'|]. split; [reflexivity|].
      rewrite app_nil_r. apply elements_set_empty, Hs.
Qed.

Lemma insert_ok : forall c x, cuckoo_inv fs n r m c ->
  exists c', cuckoo_inv fs n r m c' /\
    ((cuckoo_insert rnd c x = (Ok tt, c') /\
      Permutation (x :: elements (ck_table c) ++ ck_stash c) (elements (ck_table c') ++ ck_stash c')) \/
     (cuckoo_insert rnd c x = (Err INTERNAL, c') /\ ck_stash c' = ck_stash c /\
      m = Some (Z.of_nat (length (ck_stash c))) /\
      exists dropped,
        Permutation (x :: elements (ck_table c)) (dropped :: elements (ck_table c')))).
Proof using Hfs Hrnd Hn.
  intros c x I. unfold cuckoo_insert.
  destruct (loop_ok (Z.to_nat (ck_relocations c)) c x I) as (left & c' & E & I' & Es & P).
  rewrite E. destruct left as [e|].
  - destruct (match ck_stash_limit c' with Some s => (s <=? Z.of_nat (length (ck_stash c')))%Z | None => false end) eqn:L.
    + exists c'. split; [exact I'|]. right. split; [reflexivity|]. split; [exact Es|].
      rewrite (ci_m _ _ _ _ _ I') in L. destruct m as [s|] eqn:Em; [|discriminate].
      pose proof (ci_stash _ _ _ _ _ I' s eq_refl). rewrite Es in *.
      split; [f_equal; lia|]. exists e. etransitivity; [exact P|]. symmetry. apply Permutation_cons_append.
    + exists (with_stash c' (ck_stash c' ++ [e])). split.
      * destruct I'. constructor; cbn; try assumption.
        intros s Hs. rewrite app_length. cbn. rewrite ci_m0, Hs in L. lia.
      * left. split; [reflexivity|]. cbn. rewrite Es, app_comm_cons.
        etransitivity; [apply Permutation_app_tail, P|].
        rewrite <- app_assoc. apply Permutation_app_head. apply Permutation_app_comm.
  - exists c'. split; [exact I'|]. left. split; [reflexivity|]. rewrite app_nil_r in P. rewrite Es, app_comm_cons.
    apply Permutation_app_tail, P.
Qed.

Lemma inserts_ok : forall xs c, cuckoo_inv fs n r m c ->
  exists rs c' dropped, insert_all (cuckoo_insert rnd) c xs = (rs, c') /\ cuckoo_inv fs n r m c' /\
    length rs = length xs /\
    Forall (fun s => s = Ok tt \/ s = Err INTERNAL) rs /\ (m = None -> Forall (fun s => s = Ok tt) rs) /\
    length dropped = failures rs /\
    Permutation (xs ++ elements (ck_table c) ++ ck_stash c)
                (dropped ++ elements (ck_table c') ++ ck_stash c').
Proof using Hfs Hrnd Hn.
  induction xs as [|x xs IH]; intros c I; cbn [insert_all].
  - exists [], c, []. repeat split; try constructor; try apply I. reflexivity.
  - destruct (insert_ok c x I) as (c1 & I1 & [(E & P) | (E & Es & Em & d & P)]); rewrite E;
      destruct (IH c1 I1) as (rs & c' & dropped & Er & I' & Hl & Hr & Hn' & Hd & P'); rewrite Er;
      eexists (_ :: rs), c'.
    + exists dropped. split; [reflexivity|]. split; [exact I'|]. split; [cbn; lia|].
      split; [constructor; auto|]. split; [intros Em; constructor; auto|]. split; [exact Hd|].
      etransitivity; [|exact P']. cbn [app]. etransitivity; [apply Permutation_middle|].
      apply Permutation_app_head, P.
    + exists (d :: dropped). split; [reflexivity|]. split; [exact I'|]. split; [cbn; lia|].
      split; [constructor; auto|]. split; [congruence|]. split; [cbn in *; unfold failures in *; cbn; lia|].
      cbn [app]. etransitivity; [|apply perm_skip, P'].
      etransitivity; [apply Permutation_middle|]. etransitivity; [|symmetry; apply Permutation_middle].
      apply Permutation_app_head. rewrite Es, !app_comm_cons. apply Permutation_app_tail, P.
Qed.
End Cuckoo.

Lemma cuckoo_create_inv : forall fs n r m c, cuckoo_create fs n r m = Ok c ->
  cuckoo_inv fs n r m c /\ ck_table c = repeat None (Z.to_nat n) /\ ck_stash c = [] /\ ck_draws c = 0%nat /\
  (0 < n)%Z /\ (2 <= length fs)%nat /\ (0 <= r)%Z.
Proof.
  intros fs n r m c H. unfold cuckoo_create in H. bind_inv H. bind_inv H. bind_inv H. bind_inv H.
  apply check_ok in Hb, Hb0, Hb1, Hb2. inv H.
  split; [|cbn; repeat split; lia].
  constructor; cbn; try reflexivity.
  - apply repeat_length.
  - intros i e Hi. exfalso. revert Hi. generalize (Z.to_nat n). clear. intros k. revert i.
    induction k; intros [|i]; cbn; try discriminate. apply IHk.
  - intros s ->. destruct (Z.ltb_spec s 0); [discriminate | lia].
Qed.

(** * Tables with buckets *)

Record buckets_inv (fs : list hash_function) (n : Z) (m : option Z) (b : buckets) : Prop := {
  bi_fs : bk_functions b = fs;
  bi_n : bk_buckets b = n;
  bi_m : bk_limit b = m;
  bi_len : length (bk_table b) = Z.to_nat n
}.

Lemma buckets_create_inv : forall k fs n m b, buckets_create k fs n m = Ok b ->
  buckets_inv fs n m b /\ bk_table b = repeat [] (Z.to_nat n) /\ (0 < n)%Z /\ (k <= length fs)%nat /\
  (forall s, m = Some s -> 0 < s)%Z.
Proof.
  intros k fs n m b H. unfold buckets_create in H. bind_inv H. bind_inv H. bind_inv H.
  apply check_ok in Hb, Hb0, Hb1. inv H.
  split; [constructor; try reflexivity; apply repeat_length|].
  cbn. repeat split; try lia. intros s ->. lia.
Qed.

Lemma nth_error_nth_lt : forall A (l : list A) i d, (i < length l)%nat -> nth_error l i = Some (nth i l d).
Proof. intros. apply nth_error_nth'. assumption. Qed.

Lemma at_nth : forall A (l : list A) i d, (0 <= i)%Z -> (Z.to_nat i < length l)%nat ->
  atz_or_ub l i = Ok (nth (Z.to_nat i) l d).
Proof. intros A l i d H0 H. rewrite atz_at by assumption. apply at_or_ub_ok, nth_error_nth_lt, H. Qed.

Definition count_z (hs : list Z) (i : nat) : nat := length (filter (fun v => Z.eqb v (Z.of_nat i)) hs).

Lemma hits_count : forall fs n x hs i, Forall2 (fun (f : hash_function) v => f x n = Ok v) fs hs ->
  hits fs n x i = count_z hs i.
Proof.
  intros fs n x hs i H. induction H as [|f v fs hs E F IH]; [reflexivity|].
  unfold hits, count_z in *. cbn [filter]. rewrite E. destruct (v =? Z.of_nat i)%Z; cbn [length]; lia.
Qed.

Lemma push_all : forall x hs t, Forall (fun v => 0 <= v < Z.of_nat (length t))%Z hs ->
  exists t', foldM (fun t h => push_bucket t h x) hs t = Ok t' /\ length t' = length t /\
    forall i, (i < length t)%nat -> nth i t' [] = nth i t [] ++ repeat x (count_z hs i).
Proof.
  intros x. induction hs as [|v hs IH]; intros t H.
  - exists t. split; [reflexivity|]. split; [reflexivity|]. intros i _. symmetry. apply app_nil_r.
  - fcons H Hv Hs. cbn [foldM]. unfold push_bucket at 1.
    rewrite (at_nth _ t v []) by lia. cbn [bind].
    set (t1 := set_nth t (Z.to_nat v) (nth (Z.to_nat v) t [] ++ [x])).
    assert (L1 : length t1 = length t) by apply set_nth_len.
    destruct (IH t1) as (t' & E & L & N); [rewrite L1; exact Hs|].
    exists t'. split; [exact E|]. split; [lia|]. intros i Hi. rewrite N by lia.
    unfold count_z. cbn [filter].
    destruct (Z.eqb_spec v (Z.of_nat i)) as [->|Hne].
    + replace (nth i t1 []) with (nth i t [] ++ [x]).
      * rewrite <- app_assoc. reflexivity.
      * symmetry. apply nth_error_nth. unfold t1. rewrite !Nat2Z.id. apply nth_set_same. exact Hi.
    + replace (nth i t1 []) with (nth i t []); [reflexivity|].
      symmetry. apply nth_error_nth. unfold t1. rewrite nth_set_other by lia. apply nth_error_nth_lt, Hi.
Qed.

Section Buckets.
Variables (fs : list hash_function) (n : Z) (m : option Z).
Hypothesis Hfs : Forall (hashes_into n) fs.
Hypothesis Hn : (0 < n)%Z.

Definition full (b : buckets) (i : nat) : Prop :=
  exists s, m = Some s /\ (s <= Z.of_nat (length (nth i (bk_table b) [])))%Z.

Lemma hash_values : forall x, exists hs, Forall2 (fun (f : hash_function) v => f x n = Ok v) fs hs /\
  Forall (fun v => 0 <= v < n)%Z hs.
Proof using Hfs.
  intros x. clear - Hfs. induction fs as [|f l IH]; [exists []; auto|].
  fcons Hfs Hf Hl. destruct (Hf x) as (v & E & B). destruct (IH Hl) as (hs & F & G).
  exists (v :: hs). auto.
Qed.

Lemma candidate_in : forall x hs i, Forall2 (fun (f : hash_function) v => f x n = Ok v) fs hs ->
  candidate fs n x i <-> In (Z.of_nat i) hs.
Proof using.
  intros x hs i F. unfold candidate. split.
  - intros (f & Hf & E). clear - F Hf E. induction F as [|g v l hs Eg F IH]; [destruct Hf|].
    destruct Hf as [->|Hf]; [left; congruence|right; auto].
  - intros Hi. clear - F Hi. induction F as [|g v l hs Eg F IH]; [destruct Hi|].
    destruct Hi as [->|Hi]; [exists g; split; [left; reflexivity|exact Eg]|].
    destruct (IH Hi) as (f & Hf & E). exists f. split; [right; exact Hf|exact E].
Qed.

Lemma count_in : forall hs i, (0 < count_z hs i)%nat <-> In (Z.of_nat i) hs.
Proof using.
  intros hs i. unfold count_z. induction hs as [|v hs IH]; cbn; [split; [lia|tauto]|].
  destruct (Z.eqb_spec v (Z.of_nat i)) as [->|Hne]; cbn.
  - split; auto. lia.
  - rewrite IH. split; auto. intros [E|E]; [congruence|exact E].
Qed.

Lemma simple_loop : forall b x, buckets_inv fs n m b ->
  exists hs, Forall2 (fun (f : hash_function) v => f x n = Ok v) fs hs /\
    Forall (fun v => 0 <= v < n)%Z hs /\
    ((simple_hashes b x = Ok hs /\ forall i, In (Z.of_nat i) hs -> ~ full b i) \/
     (simple_hashes b x = Err INTERNAL /\ exists i, In (Z.of_nat i) hs /\ full b i)).
Proof using Hfs Hn.
  intros b x I. unfold simple_hashes. rewrite (bi_fs _ _ _ _ I), (bi_n _ _ _ _ I).
  pose proof (bi_len _ _ _ _ I) as L. unfold bucket_full. rewrite (bi_m _ _ _ _ I). clear I.
  revert Hfs. induction fs as [|f l IH]; intros Hl; [exists []; split; [constructor|]; split; [constructor|]; left; split; [reflexivity|intros i []]|].
  fcons Hl Hf Hr. destruct (IH Hr) as (hs & F & G & D). destruct (Hf x) as (v & E & B). clear IH.
  exists (v :: hs). split; [constructor; assumption|]. split; [constructor; assumption|].
  cbn [mapM]. rewrite E. cbn [bind].
  destruct m as [s|] eqn:Em.
  - rewrite (at_nth _ (bk_table b) v []) by lia. cbn [bind].
    destruct (Z.leb_spec s (Z.of_nat (length (nth (Z.to_nat v) (bk_table b) [])))) as [Hfull|Hfree]; cbn [negb check bind].
    + right. split; [reflexivity|]. exists (Z.to_nat v). rewrite Z2Nat.id by lia. split; [left; reflexivity|].
      exists s. auto.
    + destruct D as [(D & N) | (D & i & Hi & Hfi)]; rewrite D; cbn [bind].
      * left. split; [reflexivity|]. intros i [Hi|Hi]; [|apply N, Hi].
        subst v. rewrite Nat2Z.id in Hfree. intros (s' & Es & Hs'). assert (s' = s) by congruence. lia.
      * right. split; [reflexivity|]. exists i. split; [right; exact Hi|exact Hfi].
  - destruct D as [(D & N) | (D & i & Hi & s & Hs & _)]; [|congruence]. rewrite D; cbn [bind].
    left. split; [reflexivity|]. intros i _ (s & Hs & _). congruence.
Qed.

Lemma simple_insert_ok : forall b x, buckets_inv fs n m b ->
  (exists b', simple_insert b x = (Ok tt, b') /\ buckets_inv fs n m b' /\
     (forall i, candidate fs n x i -> ~ full b i) /\
     forall i, (i < Z.to_nat n)%nat ->
       nth i (bk_table b') [] = nth i (bk_table b) [] ++ repeat x (hits fs n x i)) \/
  (simple_insert b x = (Err INTERNAL, b) /\ exists i, candidate fs n x i /\ full b i).
Proof using Hfs Hn.
  intros b x I. unfold simple_insert. destruct (simple_loop b x I) as (hs & F & G & [(E & N) | (E & i & Hi & Hf)]); rewrite E; cbn [bind].
  - left. pose proof (bi_len _ _ _ _ I) as L.
    destruct (push_all x hs (bk_table b)) as (t' & E' & L' & N').
    { eapply Forall_impl; [|exact G]. cbn. intros v Hv. lia. }
    rewrite E'. exists (with_buckets b t'). split; [reflexivity|]. split.
    + destruct I. constructor; cbn; try assumption. lia.
    + split; [intros i Hc; apply N; apply (candidate_in x hs i F), Hc|].
      intros i Hi. cbn. rewrite N' by lia. rewrite (hits_count fs n x hs i F). reflexivity.
  - right. split; [reflexivity|]. exists i. split; [apply (candidate_in x hs i F), Hi|exact Hf].
Qed.

Lemma simple_inserts_ok : forall xs b, buckets_inv fs n m b ->
  exists rs b', insert_all simple_insert b xs = (rs, b') /\ buckets_inv fs n m b' /\ length rs = length xs /\
    Forall (fun r => r = Ok tt \/ r = Err INTERNAL) rs /\
    forall i, (i < Z.to_nat n)%nat ->
      nth i (bk_table b') [] = nth i (bk_table b) [] ++ flat_map (fun x => repeat x (hits fs n x i)) (accepted xs rs).
Proof using Hfs Hn.
  induction xs as [|x xs IH]; intros b I; cbn [insert_all].
  - exists [], b. repeat split; try constructor; try apply I. intros i _. symmetry. apply app_nil_r.
  - destruct (simple_insert_ok b x I) as [(b1 & E & I1 & _ & N) | (E & _)]; rewrite E;
      [destruct (IH b1 I1) as (rs & b' & Er & I' & Hl & Hr & Hc) | destruct (IH b I) as (rs & b' & Er & I' & Hl & Hr & Hc)];
      rewrite Er; eexists (_ :: rs), b'; split; try reflexivity; split; try exact I'; split; try (cbn; lia); split; try (constructor; auto).
    + intros i Hi. rewrite Hc by exact Hi. rewrite N by exact Hi. unfold accepted. cbn [combine filter snd succeeded map fst flat_map].
      rewrite <- app_assoc. reflexivity.
    + intros i Hi. rewrite Hc by exact Hi. reflexivity.
Qed.

(** Every bucket stays within the limit as long as no two functions send an element to the
    same bucket. *)
Definition within (b : buckets) (extra : Z) : Prop :=
  forall s i, m = Some s -> (i < Z.to_nat n)%nat -> (Z.of_nat (length (nth i (bk_table b) [])) <= s + extra)%Z.

Lemma simple_bound : forall extra xs b rs b', buckets_inv fs n m b -> (0 <= extra)%Z ->
  (forall x i, In x xs -> (Z.of_nat (hits fs n x i) <= 1 + extra)%Z) ->
  within b extra -> insert_all simple_insert b xs = (rs, b') -> within b' extra.
Proof using Hfs Hn.
  induction xs as [|x xs IH]; intros b rs b' I He Hx Hw H; cbn [insert_all] in H.
  - inv H. exact Hw.
  - destruct (simple_insert_ok b x I) as [(b1 & E & I1 & Hf & N) | (E & _)]; rewrite E in H;
      destruct (insert_all simple_insert _ xs) as [rs1 b2] eqn:Er in H; inv H.
    + eapply (IH b1); eauto; [intros y i Hy; apply Hx; right; exact Hy|].
      intros s i Hs Hi. rewrite N by exact Hi. rewrite app_length, repeat_length.
      specialize (Hx x i ltac:(left; reflexivity)).
      destruct (Nat.eq_dec (hits fs n x i) 0) as [Hz|Hz].
      * rewrite Hz. specialize (Hw s i Hs Hi). lia.
      * assert (Hc : candidate fs n x i).
        { destruct (hash_values x) as (hs & F & _). apply (candidate_in x hs i F). apply count_in.
          rewrite <- (hits_count fs n x hs i F). lia. }
        specialize (Hf i Hc). unfold full in Hf.
        assert (~ (s <= Z.of_nat (length (nth i (bk_table b) [])))%Z) by (intros Hle; apply Hf; exists s; auto).
        lia.
    + eapply (IH b); eauto. intros y i Hy. apply Hx. right. exact Hy.
Qed.

(** * The least loaded bucket *)

Definition load_of (b : buckets) (i : Z) : nat := length (nth (Z.to_nat i) (bk_table b) []).

Lemma choice_rest : forall b x gs hs smallest, buckets_inv fs n m b ->
  Forall2 (fun (f : hash_function) v => f x n = Ok v) gs hs -> Forall (fun v => 0 <= v < n)%Z hs ->
  (0 <= smallest < n)%Z ->
  exists v, choice_loop b x gs false smallest = Ok v /\ In v (smallest :: hs) /\
    forall w, In w (smallest :: hs) -> (load_of b v <= load_of b w)%nat.
Proof using Hn.
  intros b x gs hs smallest I F. revert smallest.
  pose proof (bi_len _ _ _ _ I) as L.
  induction F as [|f v gs hs E F IH]; intros smallest G Hs; cbn [choice_loop].
  - exists smallest. split; [reflexivity|]. split; [left; reflexivity|]. intros w [->|[]]; lia.
  - fcons G Hv G. rewrite (bi_n _ _ _ _ I), E. cbn [bind].
    rewrite (at_nth _ (bk_table b) v []), (at_nth _ (bk_table b) smallest []) by lia. cbn [bind].
    destruct (Nat.ltb_spec (length (nth (Z.to_nat v) (bk_table b) [])) (length (nth (Z.to_nat smallest) (bk_table b) []))) as [Hlt|Hge].
    + destruct (IH v G Hv) as (w & E' & Hi & Hm). exists w. split; [exact E'|]. split; [right; exact Hi|].
      intros u [->|[->|Hu]]; [|apply Hm; left; reflexivity|apply Hm; right; exact Hu].
      specialize (Hm v (or_introl eq_refl)). unfold load_of in *. lia.
    + destruct (IH smallest G Hs) as (w & E' & Hi & Hm). exists w. split; [exact E'|].
      split; [destruct Hi as [->|Hi]; [left; reflexivity|right; right; exact Hi]|].
      intros u [->|[->|Hu]]; [apply Hm; left; reflexivity| |apply Hm; right; exact Hu].
      specialize (Hm smallest (or_introl eq_refl)). unfold load_of in *. lia.
Qed.

Lemma choice_insert_ok : forall b x, buckets_inv fs n m b -> fs <> [] ->
  exists i, candidate fs n x i /\ (i < Z.to_nat n)%nat /\
    (forall j, candidate fs n x j -> (length (nth i (bk_table b) []) <= length (nth j (bk_table b) []))%nat) /\
  ((exists b', choice_insert b x = (Ok tt, b') /\ buckets_inv fs n m b' /\ ~ full b i /\
      bk_table b' = set_nth (bk_table b) i (nth i (bk_table b) [] ++ [x])) \/
   (choice_insert b x = (Err INTERNAL, b) /\ forall j, candidate fs n x j -> full b j)).
Proof using Hfs Hn.
  intros b x I Hne. destruct (hash_values x) as (hs & F & G).
  pose proof (bi_len _ _ _ _ I) as L.
  assert (C : forall gs hs, gs <> [] -> Forall2 (fun (f : hash_function) v => f x n = Ok v) gs hs ->
      Forall (fun v => 0 <= v < n)%Z hs ->
      exists v, choice_loop b x gs true 0 = Ok v /\ In v hs /\ forall w, In w hs -> (load_of b v <= load_of b w)%nat).
  { intros [|f gs] l Hg Fl Gl; [congruence|]. inv Fl. fcons Gl Hv Gl.
    cbn [choice_loop]. rewrite (bi_n _ _ _ _ I), H1. cbn [bind].
    apply choice_rest; assumption. }
  destruct (C fs hs Hne F G) as (v & E & Hi & Hm). exists (Z.to_nat v).
  assert (Hv : (0 <= v < n)%Z) by (exact (proj1 (Forall_forall _ _) G v Hi)).
  split; [apply (candidate_in x hs _ F); rewrite Z2Nat.id by lia; exact Hi|].
  split; [lia|].
  assert (Hmin : forall j, candidate fs n x j -> (length (nth (Z.to_nat v) (bk_table b) []) <= length (nth j (bk_table b) []))%nat).
  { intros j Hj. apply (candidate_in x hs j F) in Hj. specialize (Hm _ Hj). unfold load_of in Hm.
    rewrite Nat2Z.id in Hm. exact Hm. }
  split; [exact Hmin|].
  unfold choice_insert. rewrite (bi_fs _ _ _ _ I), E. cbn [bind].
  rewrite (at_nth _ (bk_table b) v []) by lia. cbn [bind].
  unfold bucket_full, push_bucket. rewrite (bi_m _ _ _ _ I), (at_nth _ (bk_table b) v []) by lia. cbn [bind].
  destruct (match m with Some s => (s <=? Z.of_nat (length (nth (Z.to_nat v) (bk_table b) [])))%Z | None => false end) eqn:Ef; cbn [negb check bind].
  - right. split; [reflexivity|]. intros j Hj. specialize (Hmin j Hj). destruct m as [s|] eqn:Em; [|discriminate].
    exists s. split; [exact Em|]. lia.
  - left. eexists. split; [reflexivity|]. split; [|split; [|reflexivity]].
    + destruct I. constructor; cbn; try assumption. rewrite set_nth_len. assumption.
    + intros (s & Es & Hs). rewrite Es in Ef. lia.
Qed.

Lemma choice_inserts_ok : forall xs b, buckets_inv fs n m b -> fs <> [] -> within b 0 ->
  exists rs b', insert_all choice_insert b xs = (rs, b') /\ buckets_inv fs n m b' /\ length rs = length xs /\
    Forall (fun r => r = Ok tt \/ r = Err INTERNAL) rs /\ within b' 0 /\
    Permutation (concat (bk_table b) ++ accepted xs rs) (concat (bk_table b')) /\
    ((forall i e, In e (nth i (bk_table b) []) -> candidate fs n e i) ->
     (forall i e, In e (nth i (bk_table b') []) -> candidate fs n e i)).
Proof using Hfs Hn.
  induction xs as [|x xs IH]; intros b I Hne Hw; cbn [insert_all].
  - exists [], b. split; [reflexivity|]. split; [exact I|]. split; [reflexivity|]. split; [constructor|].
    split; [exact Hw|]. split; [|auto]. unfold accepted. cbn. rewrite app_nil_r. reflexivity.
  - destruct (choice_insert_ok b x I Hne) as (i & Hc & Hi & _ & [(b1 & E & I1 & Hf & T) | (E & _)]); rewrite E.
    + assert (Hw1 : within b1 0).
      { intros s j Hs Hj. rewrite T. destruct (Nat.eq_dec i j) as [->|Hd].
        - rewrite (nth_error_nth _ _ [] (nth_set_same _ (bk_table b) j _ ltac:(rewrite (bi_len _ _ _ _ I); exact Hj))).
          rewrite app_length. cbn [length].
          assert (~ (s <= Z.of_nat (length (nth j (bk_table b) [])))%Z) by (intros H; apply Hf; exists s; auto). lia.
        - replace (nth j (set_nth (bk_table b) i (nth i (bk_table b) [] ++ [x])) []) with (nth j (bk_table b) []); [apply Hw; assumption|].
          symmetry. apply nth_error_nth. rewrite nth_set_other by exact Hd.
          apply nth_error_nth_lt. rewrite (bi_len _ _ _ _ I). exact Hj. }
      destruct (IH b1 I1 Hne Hw1) as (rs & b' & Er & I' & Hl & Hr & Hw' & P & Q). rewrite Er.
      exists (Ok tt :: rs), b'. split; [reflexivity|]. split; [exact I'|]. split; [cbn; lia|]. split; [constructor; auto|].
      split; [exact Hw'|]. split.
      * etransitivity; [|exact P]. unfold accepted. cbn [combine filter snd succeeded map fst].
        etransitivity; [symmetry; apply Permutation_middle|]. fold (accepted xs rs). rewrite app_comm_cons. apply Permutation_app_tail.
        rewrite T. assert (Hi' : (i < length (bk_table b))%nat) by (rewrite (bi_len _ _ _ _ I); exact Hi).
        clear - Hi'. revert i Hi'. induction (bk_table b) as [|a t IHt]; intros [|i] Hi; cbn in Hi; try lia; cbn [set_nth concat nth].
        -- rewrite <- app_assoc. apply Permutation_middle.
        -- etransitivity; [apply Permutation_middle|]. apply Permutation_app_head, IHt. lia.
      * intros Hp. apply Q. intros j e He. rewrite T in He. destruct (Nat.eq_dec i j) as [->|Hd].
        -- rewrite (nth_error_nth _ _ [] (nth_set_same _ (bk_table b) j _ ltac:(rewrite (bi_len _ _ _ _ I); exact Hi))) in He.
           apply in_app_iff in He. destruct He as [He|[<-|[]]]; [apply Hp, He|exact Hc].
        -- apply Hp. replace (nth j (bk_table b) []) with (nth j (set_nth (bk_table b) i (nth i (bk_table b) [] ++ [x])) []); [exact He|].
           rewrite <- !nth_default_eq. unfold nth_default. rewrite nth_set_other by exact Hd. reflexivity.
    + destruct (IH b I Hne Hw) as (rs & b' & Er & I' & Hl & Hr & Hw' & P & Q). rewrite Er.
      exists (Err INTERNAL :: rs), b'. split; [reflexivity|]. split; [exact I'|]. split; [cbn; lia|]. split; [constructor; auto|].
      split; [exact Hw'|]. split; [exact P|exact Q].
Qed.
End Buckets.
