(** IntModN sampling: range and distribution. *)
From Coq Require Import List NArith ZArith Lia Bool ZifyBool ZifyNat ZifyN.
From Verif Require Import Base ListUtil ValueTypesModel ValueTypesSpec ValueTypesProofs
  ConvProofs SampleSpec.
Import ListNotations.
Ltac Zify.zify_post_hook ::= Z.div_mod_to_equations.
Open Scope N_scope.

(** ** Range *)

Lemma unsafe_sample_loop_range : forall w m rs r, 0 < m ->
  Forall (fun x => x < m) (unsafe_sample_loop w m r rs) /\
  length (unsafe_sample_loop w m r rs) = S (length rs).
Proof.
  intros w m rs r Hm. revert r.
  induction rs as [|x rs IH]; intros r; cbn [unsafe_sample_loop length].
  - split; auto. constructor; auto. apply N.mod_lt; lia.
  - edestruct IH as [H1 H2]. split; [|rewrite H2; auto].
    constructor; [apply N.mod_lt; lia|]. apply H1.
Qed.

Lemma unsafe_sample_ok : forall w m b n, cty_ok (TMod w m) = true -> (0 < n)%nat ->
  (16 + nbytes w * (n - 1) <= length b)%nat ->
  exists l, unsafe_sample_from_bytes w m b n = Ok l /\ length l = n /\
    Forall (fun x => x < m) l.
Proof.
  intros w m b n Hok Hn HL. apply cty_ok_mod in Hok. destruct Hok as (Hw & Hm & _).
  unfold unsafe_sample_from_bytes. assert (16 <= length b)%nat by nia.
  rewrite substr_ok by lia. cbn [bind skipn].
  destruct (int_from_bytes_ok 128 (firstn 16 b)) as (x & Hx & _); auto.
  { rewrite firstn_length. change (nbytes 128) with 16%nat. lia. }
  rewrite Hx. cbn [bind].
  assert (HM : exists l, mapM (fun i => sub <- substr b (16 + i * nbytes w) (nbytes w) ;;
                               int_from_bytes w sub) (seq 0 (n - 1)) = Ok l).
  { assert (HS : forall l, (forall i, In i l -> (i < n - 1)%nat) ->
      exists r, mapM (fun i => sub <- substr b (16 + i * nbytes w) (nbytes w) ;;
                               int_from_bytes w sub) l = Ok r).
    { induction l as [|i l IH]; intros Hl; cbn [mapM]; eauto.
      assert (i < n - 1)%nat by (apply Hl; left; auto).
      rewrite substr_ok by nia. cbn [bind].
      destruct (int_from_bytes_ok w (firstn (nbytes w) (skipn (16 + i * nbytes w) b)))
        as (y & Hy & _); auto.
      { rewrite firstn_length, skipn_length. nia. }
      rewrite Hy. cbn [bind]. destruct IH as (r & Hr).
      { intros; apply Hl; right; auto. }
      rewrite Hr. cbn [bind]. eauto. }
    apply HS. intros i Hi. apply in_seq in Hi. lia. }
  destruct HM as (l & Hl). rewrite Hl. cbn [bind].
  destruct (unsafe_sample_loop_range w m l x Hm) as [H1 H2].
  eexists; split; eauto. split; auto.
  rewrite H2. apply mapM_length in Hl. rewrite seq_length in Hl. lia.
Qed.

Lemma sample_from_bytes_spec : forall F w m b sec n, cty_ok (TMod w m) = true ->
  match sample_from_bytes F w m b sec n with
  | Ok l => length l = n /\ (0 < n)%nat /\ Forall (fun x => x < m) l /\
            (16 + nbytes w * (n - 1) <= length b)%nat /\
            f_gt_level F sec (N.of_nat n) m = false
  | Err c => c = INVALID_ARGUMENT /\
      (n = 0%nat \/ (length b < 16 + nbytes w * (n - 1))%nat \/
       f_gt_level F sec (N.of_nat n) m = true)
  | _ => False
  end.
Proof.
  intros F w m b sec n Hok. unfold sample_from_bytes.
  destruct (Nat.eqb_spec n 0); [auto|].
  pose proof Hok as Hok'. apply cty_ok_mod in Hok'. destruct Hok' as (Hw & Hm & Hm2).
  unfold get_num_bytes_required, check_parameters.
  destruct (Z.of_nat n <=? 0)%Z eqn:E1; [lia|].
  assert (Hwb : 1 <= w <= 128) by (widths Hw; lia).
  destruct (Z.of_N w <=? 0)%Z eqn:E2; [lia|].
  destruct (128 <? Z.of_N w)%Z eqn:E3; [lia|].
  rewrite N2Z.id.
  assert (2 ^ w <? m = false) as -> by lia. rewrite andb_false_r.
  replace (Z.to_N (Z.of_nat n)) with (N.of_nat n) by lia.
  destruct (f_gt_level F sec (N.of_nat n) m) eqn:E4; cbn [bind]; [auto|].
  pose proof (nbytes_width w Hw).
  replace ((Z.of_N w + 7) / 8)%Z with (Z.of_nat (nbytes w)) by lia.
  destruct (Z.of_nat (length b) <? 16 + Z.of_nat (nbytes w) * (Z.of_nat n - 1))%Z eqn:E5.
  - split; auto. right. left. nia.
  - destruct (unsafe_sample_ok w m b n) as (l & -> & Hl & HF); auto; try nia.
    repeat split; auto; nia.
Qed.

(** ** Counting *)

Lemma seq_N : forall n, all_below (N.of_nat n) = map N.of_nat (seq 0 n).
Proof. intros. unfold all_below. rewrite Nat2N.id. reflexivity. Qed.

Lemma all_below_succ : forall n, all_below (N.succ n) = all_below n ++ [n].
Proof.
  intros n. unfold all_below. rewrite N2Nat.inj_succ, seq_S, map_app. cbn [map].
  rewrite Nat.add_0_l, N2Nat.id. reflexivity.
Qed.
Lemma all_below_0 : all_below 0 = [].
Proof. reflexivity. Qed.
Lemma all_below_length : forall n, length (all_below n) = N.to_nat n.
Proof. intros. unfold all_below. rewrite map_length, seq_length. reflexivity. Qed.
Lemma in_all_below : forall n x, In x (all_below n) <-> x < n.
Proof.
  intros n x. unfold all_below. rewrite in_map_iff. split.
  - intros (k & <- & Hk). apply in_seq in Hk. lia.
  - intros H. exists (N.to_nat x). rewrite in_seq. split; lia.
Qed.

Lemma count_app : forall A (p : A -> bool) a b, count p (a ++ b) = count p a + count p b.
Proof. intros. unfold count. rewrite filter_app, app_length. lia. Qed.
Lemma count_ext : forall A (p q : A -> bool) l, (forall x, In x l -> p x = q x) ->
  count p l = count q l.
Proof.
  intros A p q l H. unfold count. do 2 f_equal. induction l as [|a l IH]; auto. cbn [filter].
  rewrite (H a) by (left; auto). rewrite IH by (intros; apply H; right; auto). reflexivity.
Qed.
Lemma count_one : forall A (p : A -> bool) a, count p [a] = if p a then 1 else 0.
Proof. intros. unfold count. cbn [filter]. destruct (p a); reflexivity. Qed.

Lemma count_mod : forall m M v, 0 < m -> v < m ->
  count (fun x => x mod m =? v) (all_below M) = M / m + (if v <? M mod m then 1 else 0).
Proof.
  intros m M v Hm Hv. induction M as [|M IH] using N.peano_ind.
  - rewrite all_below_0, N.div_0_l, N.mod_0_l by lia.
    change (v <? 0) with (v <? 0). destruct (v <? 0) eqn:E; [lia|reflexivity].
  - rewrite all_below_succ, count_app, IH, count_one.
    pose proof (N.div_mod M m ltac:(lia)) as HD. pose proof (N.mod_lt M m ltac:(lia)) as HR.
    set (q := M / m) in *. set (r := M mod m) in *. clearbody q r.
    destruct (N.eq_dec (r + 1) m) as [He|He].
    + assert (Hq : N.succ M / m = q + 1).
      { symmetry. apply N.div_unique with 0; nia. }
      assert (Hr : N.succ M mod m = 0).
      { symmetry. apply N.mod_unique with (q + 1); nia. }
      rewrite Hq, Hr. destruct (v <? r) eqn:E1, (r =? v) eqn:E2, (v <? 0) eqn:E3; lia.
    + assert (Hq : N.succ M / m = q).
      { symmetry. apply N.div_unique with (r + 1); nia. }
      assert (Hr : N.succ M mod m = r + 1).
      { symmetry. apply N.mod_unique with q; nia. }
      rewrite Hq, Hr. destruct (v <? r) eqn:E1, (r =? v) eqn:E2, (v <? r + 1) eqn:E3; lia.
Qed.

Lemma sumN_app : forall a b, sumN (a ++ b) = sumN a + sumN b.
Proof. induction a; intros; cbn [app sumN fold_right]; [reflexivity|]. fold (sumN (a0 ++ b)). rewrite IHa. unfold sumN. cbn [fold_right]. lia. Qed.

Lemma sumN_two_valued : forall n r a b, r <= n ->
  sumN (map (fun v => if v <? r then a else b) (all_below n)) = r * a + (n - r) * b.
Proof.
  induction n as [|n IH] using N.peano_ind; intros r a b H.
  - assert (r = 0) as -> by lia. reflexivity.
  - rewrite all_below_succ, map_app, sumN_app. cbn [map]. unfold sumN at 2. cbn [fold_right].
    destruct (N.eq_dec r (N.succ n)) as [->|Hne].
    + assert (n <? N.succ n = true) as -> by lia.
      assert (HE : map (fun v => if v <? N.succ n then a else b) (all_below n)
                 = map (fun v => if v <? n then a else b) (all_below n)).
      { apply map_ext_in. intros v Hv. apply in_all_below in Hv.
        assert (v <? N.succ n = true) as -> by lia. assert (v <? n = true) as -> by lia. auto. }
      rewrite HE, IH by lia. nia.
    + rewrite IH by lia. assert (n <? r = false) as -> by lia. nia.
Qed.

(** Reducing a uniform number below M modulo m: exact distance, and the bound m^2/2. *)
Lemma tv_mod_exact : forall m M, 0 < m ->
  tv_2mM (fun x => x mod m) M m = 2 * (M mod m) * (m - M mod m).
Proof.
  intros m M Hm. unfold tv_2mM.
  pose proof (N.div_mod M m ltac:(lia)) as HD. pose proof (N.mod_lt M m ltac:(lia)) as HR.
  erewrite map_ext_in
    with (g := fun v => if v <? M mod m then m - M mod m else M mod m).
  - rewrite sumN_two_valued by lia. nia.
  - intros v Hv. apply in_all_below in Hv. rewrite count_mod by auto. unfold dist.
    set (q := M / m) in *. set (r := M mod m) in *. clearbody q r.
    destruct (v <? r); nia.
Qed.

Lemma tv_mod_bound : forall m M, 0 < m -> 2 * tv_2mM (fun x => x mod m) M m <= m * m.
Proof.
  intros m M Hm. rewrite tv_mod_exact by auto.
  pose proof (N.mod_lt M m ltac:(lia)). set (r := M mod m) in *. clearbody r.
  assert (HH : (0 <= (Z.of_N m - 2 * Z.of_N r) * (Z.of_N m - 2 * Z.of_N r))%Z)
    by apply Z.square_nonneg. nia.
Qed.

(** FromBytes<IntModN> is the reduction of the first 16 bytes modulo m. *)
Lemma from_bytes_mod : forall w m x rest, cty_ok (TMod w m) = true -> x < P128 ->
  from_bytes (TMod w m) (le_encode 16 x ++ rest) = Ok (VNum (x mod m)).
Proof.
  intros w m x rest Hok Hx. apply cty_ok_mod in Hok. destruct Hok as (Hw & Hm & Hm2).
  unfold from_bytes. cbn [is_direct].
  assert (HL : length (le_encode 16 x) = 16%nat) by apply le_encode_length.
  rewrite substr_ok by (rewrite app_length; lia). cbn [bind skipn].
  rewrite firstn_app_exact by auto.
  destruct (int_from_bytes_ok 128 (le_encode 16 x)) as (y & Hy & _ & ->); auto.
  rewrite Hy. cbn [bind]. rewrite substr_from_ok by (rewrite app_length; lia).
  cbn [bind sample_and_update]. rewrite le_decode_encode.
  rewrite N.mod_small with (a := x) by (change (256 ^ N.of_nat 16) with P128; lia).
  pose proof (N.mod_lt x m ltac:(lia)).
  rewrite (N.mod_small (x mod m)) by lia. rewrite N.mod_small by auto. reflexivity.
Qed.

(** ** Several samples from a 128-bit base type: UnsafeSampleFromBytes is biased. *)

Lemma count_prod : forall A B (f : A -> bool) (g : B -> bool) la lb,
  count (fun p => f (fst p) && g (snd p)) (list_prod la lb) = count f la * count g lb.
Proof.
  intros A B f g la lb. induction la as [|a la IH]; cbn [list_prod]; [reflexivity|].
  rewrite count_app, IH.
  assert (H1 : count (fun p => f (fst p) && g (snd p)) (map (fun y => (a, y)) lb)
             = if f a then count g lb else 0).
  { clear IH. unfold count. induction lb as [|b lb IHb]; cbn [map filter].
    - destruct (f a); reflexivity.
    - cbn [fst snd] in *. destruct (f a); cbn [andb] in *.
      + destruct (g b); cbn [length]; lia.
      + apply IHb. }
  rewrite H1. replace (a :: la) with ([a] ++ la) by reflexivity.
  rewrite count_app, count_one. destruct (f a); lia.
Qed.

Lemma count_even : forall n, count N.even (all_below n) = (n + 1) / 2.
Proof.
  induction n as [|n IH] using N.peano_ind; [reflexivity|].
  rewrite all_below_succ, count_app, IH, count_one.
  destruct (N.even n) eqn:E.
  - apply N.even_spec in E. destruct E as [k ->]. lia.
  - assert (HO : N.odd n = true) by (rewrite <- N.negb_even, E; auto).
    apply N.odd_spec in HO. destruct HO as [k ->]. lia.
Qed.

(** Numbers whose quotient by k is even, below 2*k*j. *)
Lemma count_block_even : forall k n, 0 < k ->
  count (fun r => N.even (r / k)) (all_below n) =
  k * (n / (2 * k)) + N.min (n mod (2 * k)) k.
Proof.
  intros k n Hk. induction n as [|n IH] using N.peano_ind.
  - rewrite all_below_0, N.div_0_l, N.mod_0_l by lia. unfold count. cbn [filter length]. lia.
  - rewrite all_below_succ, count_app, IH, count_one.
    pose proof (N.div_mod n (2 * k) ltac:(lia)) as HD.
    pose proof (N.mod_lt n (2 * k) ltac:(lia)) as HR.
    set (q := n / (2 * k)) in *. set (r := n mod (2 * k)) in *. clearbody q r.
    assert (HE : N.even (n / k) = (r <? k)).
    { destruct (r <? k) eqn:E.
      - replace (n / k) with (2 * q); [apply N.even_spec; exists q; auto|].
        apply N.div_unique with r; nia.
      - replace (n / k) with (2 * q + 1).
        + rewrite N.even_add, N.even_mul. reflexivity.
        + apply N.div_unique with (r - k); nia. }
    rewrite HE.
    destruct (N.eq_dec (r + 1) (2 * k)) as [He|He].
    + assert (Hq : N.succ n / (2 * k) = q + 1).
      { symmetry. apply N.div_unique with 0; nia. }
      assert (Hr : N.succ n mod (2 * k) = 0).
      { symmetry. apply N.mod_unique with (q + 1); nia. }
      rewrite Hq, Hr. destruct (r <? k) eqn:E1; lia.
    + assert (Hq : N.succ n / (2 * k) = q).
      { symmetry. apply N.div_unique with (r + 1); nia. }
      assert (Hr : N.succ n mod (2 * k) = r + 1).
      { symmetry. apply N.mod_unique with q; nia. }
      rewrite Hq, Hr. destruct (r <? k) eqn:E1; lia.
Qed.

(** The two samples that a 128-bit IntModN takes from 32 bytes. *)
Lemma unsafe_two_samples_128 : forall m r x, 0 < m -> m < P128 -> r < P128 -> x < P128 ->
  unsafe_sample_from_bytes 128 m (le_encode 16 r ++ le_encode 16 x) 2
  = Ok [r mod m; N.lor (r / m) x mod m].
Proof.
  intros m r x Hm Hm2 Hr Hx. unfold unsafe_sample_from_bytes.
  pose proof (le_encode_length 16 r) as HL1. pose proof (le_encode_length 16 x) as HL2.
  change (nbytes 128) with 16%nat. cbn [Nat.sub seq mapM].
  rewrite !substr_ok by (rewrite app_length; lia). cbn [bind skipn].
  rewrite firstn_app_exact by auto.
  destruct (int_from_bytes_ok 128 (le_encode 16 r)) as (y & Hy & _ & ->); auto.
  rewrite Hy. cbn [bind].
  replace (skipn (16 + 0 * 16) (le_encode 16 r ++ le_encode 16 x)) with (le_encode 16 x).
  2:{ change (16 + 0 * 16)%nat with 16%nat. rewrite skipn_app_exact by auto. reflexivity. }
  rewrite firstn_all2 by lia.
  destruct (int_from_bytes_ok 128 (le_encode 16 x)) as (y & Hy2 & _ & ->); auto.
  rewrite Hy2. cbn [bind unsafe_sample_loop].
  change (128 <? 128) with false. cbv iota. rewrite !le_decode_encode.
  change (256 ^ N.of_nat 16) with P128.
  rewrite !(N.mod_small _ P128) by lia. change (2 ^ 128) with P128.
  pose proof (N.mod_lt r m ltac:(lia)). pose proof (N.mod_lt (N.lor (r / m) x) m ltac:(lia)).
  rewrite !(N.mod_small (_ mod m) m) by lia. reflexivity.
Qed.

Lemma lor_even : forall a b, N.even (N.lor a b) = N.even a && N.even b.
Proof.
  intros a b. rewrite <- !N.negb_odd, <- !N.bit0_odd, N.lor_spec.
  destruct (N.testbit a 0), (N.testbit b 0); reflexivity.
Qed.

Lemma second_sample_even_count : forall K, 0 < K -> forall M, M = 2 * K * K * 2 ->
  count (fun p => N.even (N.lor (fst p / (2 * K)) (snd p) mod (2 * K)))
        (list_prod (all_below M) (all_below M)) * 4 = M * M.
Proof.
  intros K HK M HM.
  assert (HE : forall y, N.even (y mod (2 * K)) = N.even y).
  { intros y. pose proof (N.div_mod y (2 * K) ltac:(lia)) as HD.
    rewrite HD at 2. rewrite N.even_add, !N.even_mul. cbn [N.even orb].
    destruct (N.even (y mod (2 * K))); reflexivity. }
  rewrite (count_ext _ _ (fun p => N.even (fst p / (2 * K)) && N.even (snd p))).
  2:{ intros p _. rewrite HE, lor_even. reflexivity. }
  rewrite count_prod with (f := fun r => N.even (r / (2 * K))) (g := N.even).
  rewrite count_even, count_block_even by lia.
  replace (M / (2 * (2 * K))) with K by (apply N.div_unique with 0; nia).
  replace (M mod (2 * (2 * K))) with 0 by (apply N.mod_unique with K; nia).
  rewrite N.min_0_l. replace ((M + 1) / 2) with (2 * K * K); [nia|].
  apply N.div_unique with 1; nia.
Qed.
