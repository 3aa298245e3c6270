(** The loops of EvaluateSeedsHwy: every seed is walked exactly once, with its own path
    and corrections, for every vector width. *)
From Coq Require Import List NArith ZArith Lia Bool ZifyBool ZifyNat ZifyN.
From Verif Require Import Base ListUtil ValueTypesModel DpfModel DpfTree HwyModel HwyProofs.
Import ListNotations.
Ltac Zify.zify_post_hook ::= Z.div_mod_to_equations.
Open Scope N_scope.

Ltac nlia := unfold node, corr in *; lia.

(** * Lists *)
Lemma foldM_inv : forall S (f : S -> nat -> res S) (P : nat -> S -> Prop) n s0,
  P 0%nat s0 ->
  (forall j s, (j < n)%nat -> P j s -> exists s', f s j = Ok s' /\ P (Datatypes.S j) s') ->
  exists s', foldM f (seq 0 n) s0 = Ok s' /\ P n s'.
Proof.
  intros S f P n s0 H0 HS.
  assert (HG : forall k j s, (j + k)%nat = n -> P j s ->
            exists s', foldM f (seq j k) s = Ok s' /\ P n s').
  { induction k as [|k IH]; intros j s Hjk HP.
    - exists s. split; [reflexivity|]. replace n with j by lia. auto.
    - destruct (HS j s ltac:(lia) HP) as (s1 & E1 & P1).
      destruct (IH (Datatypes.S j) s1 ltac:(lia) P1) as (s2 & E2 & P2).
      exists s2. split; auto. cbn [seq foldM]. rewrite E1. exact E2. }
  apply (HG n 0%nat s0); auto.
Qed.

Lemma firstn_skipn_nth : forall A (l : list A) o k d, (o + k <= length l)%nat ->
  firstn k (skipn o l) = map (fun i => nth (o + i) l d) (seq 0 k).
Proof.
  intros A l o k d H. apply nth_error_ext. intros i.
  destruct (Nat.lt_ge_cases i k) as [Hi|Hi].
  - rewrite nth_error_firstn_lt, nth_error_skipn' by auto.
    rewrite (nth_error_nth' l d) by lia.
    rewrite nth_error_map, nth_error_seq by auto. reflexivity.
  - rewrite (proj2 (nth_error_None _ _)) by (rewrite firstn_length; lia).
    symmetry. apply nth_error_None. rewrite map_length, seq_length. auto.
Qed.

Lemma read_array_ok : forall A (mem : list A) off len, (off + len <= length mem)%nat ->
  read_array mem off len = Ok (firstn len (skipn off mem)).
Proof. intros. unfold read_array. destruct (Nat.leb_spec (off + len) (length mem)); auto; lia. Qed.
Lemma write_array_ok : forall A (mem : list A) off vals, (off + length vals <= length mem)%nat ->
  write_array mem off vals = Ok (firstn off mem ++ vals ++ skipn (off + length vals) mem).
Proof. intros. unfold write_array. destruct (Nat.leb_spec (off + length vals) (length mem)); auto; lia. Qed.

Lemma mapM_pairs : forall (g : nat -> res bool) h k a,
  (forall i, (a <= i < a + k)%nat -> g i = Ok (h i)) ->
  mapM (fun i => g (Nat.div i 2)) (seq (2 * a) (2 * k)) = Ok (mlanes (map h (seq a k))).
Proof.
  induction k as [|k IH]; intros a H; [reflexivity|].
  replace (2 * S k)%nat with (S (S (2 * k))) by lia. cbn [seq mapM].
  replace (Nat.div (2 * a) 2) with a by lia. replace (Nat.div (S (2 * a)) 2) with a by lia.
  rewrite H by lia. cbn [bind].
  replace (S (S (2 * a))) with (2 * S a)%nat by lia. rewrite IH by (intros; apply H; lia).
  cbn [bind map]. rewrite mlanes_cons. reflexivity.
Qed.

Lemma nth_mlanes : forall m i, nth (i * 2) (mlanes m) false = nth i m false.
Proof.
  induction m as [|b m IH]; intros i.
  - destruct i; [reflexivity|]. destruct (S i * 2)%nat; reflexivity.
  - destruct i as [|i]; [reflexivity|]. rewrite mlanes_cons.
    replace (S i * 2)%nat with (S (S (i * 2))) by lia. cbn [nth]. apply IH.
Qed.

Lemma imap_firstn_skipn : forall A B (f : nat -> A -> B) l s k,
  firstn k (skipn s (imap f 0 l)) = imap f s (firstn k (skipn s l)).
Proof.
  intros A B f l s k.
  assert (HS : forall s l o, skipn s (imap f o l) = imap f (o + s) (skipn s l)).
  { clear. induction s as [|s IH]; intros l o.
    - rewrite Nat.add_0_r. reflexivity.
    - destruct l as [|a l]; [reflexivity|]. cbn [imap skipn]. rewrite IH. f_equal. lia. }
  assert (HF : forall k l o, firstn k (imap f o l) = imap f o (firstn k l)).
  { clear. induction k as [|k IH]; intros l o; [reflexivity|].
    destruct l as [|a l]; [reflexivity|]. cbn [imap firstn]. rewrite IH. reflexivity. }
  rewrite HS, HF. reflexivity.
Qed.

Lemma firstn_add : forall A (l : list A) a b,
  firstn (a + b) l = firstn a l ++ firstn b (skipn a l).
Proof.
  intros A l a. revert l. induction a as [|a IH]; intros l b; [reflexivity|].
  destruct l as [|x l]; [cbn; rewrite firstn_nil; reflexivity|].
  cbn [Nat.add firstn skipn app]. rewrite IH. reflexivity.
Qed.

Lemma zip3_app : forall A B C D (f : A -> B -> C -> D) a1 b1 c1 a2 b2 c2,
  length b1 = length a1 -> length c1 = length a1 ->
  zip3 f (a1 ++ a2) (b1 ++ b2) (c1 ++ c2) = zip3 f a1 b1 c1 ++ zip3 f a2 b2 c2.
Proof.
  induction a1 as [|a a1 IH]; intros [|b b1] [|c c1] a2 b2 c2 H1 H2; try discriminate; [reflexivity|].
  cbn [app zip3]. rewrite IH by (cbn in *; lia). reflexivity.
Qed.
Lemma zip3_length : forall A B C D (f : A -> B -> C -> D) a b c,
  length b = length a -> length c = length a -> length (zip3 f a b c) = length a.
Proof.
  induction a as [|x a IH]; intros [|y b] [|z c] H1 H2; try discriminate; [reflexivity|].
  cbn [zip3 length]. rewrite IH by (cbn in *; lia). reflexivity.
Qed.

(** * Masks from arrays of bools *)
Section Width.
Variable bpv : nat.
Hypothesis Hbpv : (0 < bpv)%nat.

Lemma mask_from_bools_full : forall input off, (off + bpv <= length input)%nat ->
  mask_from_bools bpv input off 0 = Ok (mlanes (firstn bpv (skipn off input))).
Proof.
  intros input off H. unfold mask_from_bools, lanes64. cbn [Nat.ltb Nat.leb andb].
  rewrite (firstn_skipn_nth _ _ _ _ false) by auto.
  apply (mapM_pairs (fun b => at_or_ub input (off + b)) (fun i => nth (off + i) input false) bpv 0).
  intros i Hi. unfold at_or_ub. rewrite (nth_error_nth' input false) by lia. reflexivity.
Qed.
Lemma mask_from_bools_part : forall input off k, (0 < k)%nat -> (k <= bpv)%nat ->
  (off + k <= length input)%nat ->
  mask_from_bools bpv input off k
  = Ok (mlanes (firstn k (skipn off input) ++ repeat false (bpv - k))).
Proof.
  intros input off k Hk Hkb H. unfold mask_from_bools, lanes64.
  rewrite (firstn_skipn_nth _ _ _ _ false) by auto.
  replace (Nat.ltb 0 k) with true by (symmetry; apply Nat.ltb_lt; auto). cbn [andb].
  pose proof (mapM_pairs (fun b => if Nat.leb k b then Ok false else at_or_ub input (off + b))
      (fun i => if Nat.leb k i then false else nth (off + i) input false) bpv 0) as HM.
  change (2 * 0)%nat with 0%nat in HM. rewrite HM; clear HM.
  - do 2 f_equal. replace bpv with (k + (bpv - k))%nat at 1 by lia.
    rewrite seq_app, map_app. f_equal.
    + apply map_ext_in. intros i Hi. apply in_seq in Hi.
      destruct (Nat.leb_spec k i); [lia|reflexivity].
    + transitivity (map (fun _ => false) (seq (0 + k) (bpv - k))).
      * apply map_ext_in. intros i Hi. apply in_seq in Hi.
        destruct (Nat.leb_spec k i); [reflexivity|lia].
      * clear. generalize (0 + k)%nat as a. induction (bpv - k)%nat as [|n IH]; intros a; [reflexivity|].
        cbn [seq map repeat]. rewrite IH. reflexivity.
  - intros i Hi. destruct (Nat.leb_spec k i); [reflexivity|].
    unfold at_or_ub. rewrite (nth_error_nth' input false) by lia. reflexivity.
Qed.
Lemma bools_from_mask_lanes : forall m output off k,
  (if Nat.ltb 0 k then k else bpv) = length m -> (off + length m <= length output)%nat ->
  forall m2,
  bools_from_mask bpv (mlanes (m ++ m2)) output off k
  = Ok (firstn off output ++ m ++ skipn (off + length m) output).
Proof.
  intros m output off k Hk H m2. unfold bools_from_mask, lanes64.
  replace (2 * bpv / 2)%nat with bpv by lia. rewrite Hk.
  assert (HE : map (fun i => nth (i * 2) (mlanes (m ++ m2)) false) (seq 0 (length m)) = m).
  { rewrite (map_ext_in _ (fun i => nth i m false)).
    - apply map_seq_nth.
    - intros i Hi. apply in_seq in Hi. rewrite nth_mlanes, app_nth1 by lia. reflexivity. }
  rewrite HE. apply write_array_ok. auto.
Qed.

Lemma load_u_ok : forall mem s, (s + bpv <= length mem)%nat ->
  load_u bpv mem (16 * s) = Ok (lanes_of (firstn bpv (skipn s mem))).
Proof.
  intros mem s H. unfold load_u. replace (16 * s mod 16)%nat with 0%nat by lia.
  replace (16 * s / 16)%nat with s by lia. cbn [Nat.eqb]. rewrite read_array_ok by auto. reflexivity.
Qed.
Lemma mod_bpv : forall q, (16 * (q * bpv) mod bytes_per_vec bpv = 0)%nat.
Proof.
  intros q. unfold bytes_per_vec. replace (16 * (q * bpv))%nat with (q * (16 * bpv))%nat by lia.
  apply Nat.mod_mul. lia.
Qed.
Lemma load_ok : forall mem q s, s = (q * bpv)%nat -> (s + bpv <= length mem)%nat ->
  load bpv mem (16 * s) = Ok (lanes_of (firstn bpv (skipn s mem))).
Proof.
  intros mem q s -> H. unfold load. rewrite mod_bpv. cbn [Nat.eqb]. apply load_u_ok. auto.
Qed.
Lemma store_ok : forall blocks mem q s, s = (q * bpv)%nat -> length blocks = bpv ->
  Forall (fun x => x < P128) blocks -> (s + bpv <= length mem)%nat ->
  store bpv (lanes_of blocks) mem (16 * s) = Ok (firstn s mem ++ blocks ++ skipn (s + bpv) mem).
Proof.
  intros blocks mem q s -> HL HF H. unfold store. rewrite mod_bpv. cbn [Nat.eqb].
  replace (16 * (q * bpv) / 16)%nat with (q * bpv)%nat by lia.
  rewrite blocks_lanes. rewrite (map_ext_in w128 (fun x => x)), map_id.
  - rewrite write_array_ok; rewrite HL; auto.
  - intros x Hx. rewrite Forall_forall in HF. apply w128_small. auto.
Qed.

Section Aes.
Variables (aes_round aes_last : N -> N -> N) (round_key : N -> nat -> N).
Let aes := aes_encrypt aes_round aes_last round_key.

(** * One call *)
Section Call.
Variables (n num_levels : nat) (ncw : Z) (cwpl rs : nat) (cws : list corr).
Variables (seeds : list N) (bits : list bool) (paths : list N).
Hypothesis Hn : (0 < n)%nat.
Hypothesis Hlev : (0 < num_levels)%nat.
Hypothesis Hseeds : length seeds = n.
Hypothesis Hbits : length bits = n.
Hypothesis Hpaths : length paths = n.
Hypothesis HpathsF : Forall (fun p => p < P128) paths.
Hypothesis HcwsF : Forall (fun c => fst c < P128) cws.
Hypothesis Hcw : (ncw = Z.of_nat num_levels /\ cwpl = 1%nat /\ length cws = num_levels)
  \/ (ncw = Z.of_nat (num_levels * n) /\ cwpl = n /\ (1 < n)%nat /\ length cws = (num_levels * n)%nat).

Definition pns : list (N * node) := combine paths (combine seeds bits).
Let cg := cget n num_levels ncw cws.
Let pb := pbit num_levels rs.
(** The node of every seed after [j] levels, and those of the [k] seeds from [s]. *)
Definition after_levels (j : nat) : list node :=
  imap (fun i pn => walkf aes n num_levels ncw rs cws (seq 0 j) i (fst pn) (snd pn)) 0 pns.
Definition seg (j s k : nat) : list node := firstn k (skipn s (after_levels j)).
Definition segc (j s k : nat) : list corr := map (fun i => cg j (s + i)%nat) (seq 0 k).
Definition segp (s k : nat) : list N := firstn k (skipn s paths).

Lemma pns_length : length pns = n.
Proof. unfold pns. rewrite !combine_length. lia. Qed.
Lemma after_length : forall j, length (after_levels j) = n.
Proof. intros. unfold after_levels. rewrite imap_length. apply pns_length. Qed.
Lemma seg_length : forall j s k, (s + k <= n)%nat -> length (seg j s k) = k.
Proof. intros. unfold seg. rewrite firstn_length, skipn_length, after_length. lia. Qed.
Lemma segp_length : forall s k, (s + k <= n)%nat -> length (segp s k) = k.
Proof. intros. unfold segp. rewrite firstn_length, skipn_length. lia. Qed.
Lemma segc_length : forall j s k, length (segc j s k) = k.
Proof. intros. unfold segc. rewrite map_length, seq_length. reflexivity. Qed.

Lemma after_zero : after_levels 0 = combine seeds bits.
Proof.
  unfold after_levels, walkf. cbn [seq fold_left].
  rewrite (imap_const _ _ (fun pn : N * node => snd pn)). unfold pns.
  assert (HL : length paths = length (combine seeds bits)) by (rewrite combine_length; lia).
  clear - HL. revert HL. generalize (combine seeds bits) as l. induction paths as [|p ps IH]; intros [|x l] HL;
    try discriminate; auto. cbn [combine map snd]. rewrite IH by (cbn in HL; lia). reflexivity.
Qed.
Lemma seg_zero_fst : forall s k, map fst (seg 0 s k) = firstn k (skipn s seeds).
Proof.
  intros. unfold seg. rewrite after_zero. rewrite <- firstn_map, <- skipn_map. do 2 f_equal.
  assert (HL : length seeds = length bits) by lia. clear - HL. revert bits HL.
  induction seeds as [|x l IH]; intros [|b bs] HL; try discriminate; auto.
  cbn [combine map fst]. rewrite IH by (cbn in HL; lia). reflexivity.
Qed.
Lemma seg_zero_snd : forall s k, map snd (seg 0 s k) = firstn k (skipn s bits).
Proof.
  intros. unfold seg. rewrite after_zero. rewrite <- firstn_map, <- skipn_map. do 2 f_equal.
  assert (HL : length seeds = length bits) by lia. clear - HL. revert bits HL.
  induction seeds as [|x l IH]; intros [|b bs] HL; try discriminate; auto.
  cbn [combine map snd]. rewrite IH by (cbn in HL; lia). reflexivity.
Qed.

Lemma walkf_S : forall j i p nd,
  walkf aes n num_levels ncw rs cws (seq 0 (S j)) i p nd
  = step aes (cg j i) (pb p j) (walkf aes n num_levels ncw rs cws (seq 0 j) i p nd).
Proof. intros. rewrite seq_S. unfold walkf. rewrite fold_left_app. reflexivity. Qed.
Lemma seg_step : forall j s k, (s + k <= n)%nat ->
  zip3 (step aes) (segc j s k) (map (fun p => pb p j) (segp s k)) (seg j s k) = seg (S j) s k.
Proof.
  intros j s k H. unfold seg, after_levels. rewrite !imap_firstn_skipn.
  rewrite (imap_ext _ _ (fun i pn => walkf aes n num_levels ncw rs cws (seq 0 (S j)) i (fst pn) (snd pn))
    (fun i pn => step aes (cg j i) (pb (fst pn) j)
       (walkf aes n num_levels ncw rs cws (seq 0 j) i (fst pn) (snd pn))))
    by (intros; apply walkf_S).
  assert (HP : segp s k = map fst (firstn k (skipn s pns))).
  { unfold segp. rewrite <- firstn_map, <- skipn_map. do 2 f_equal. unfold pns.
    assert (HL : length paths = length (combine seeds bits)) by (rewrite combine_length; lia).
    clear - HL. revert HL. generalize (combine seeds bits) as l. induction paths as [|p ps IH]; intros [|x l] HL;
      try discriminate; auto. cbn [combine map fst]. rewrite <- IH by (cbn in HL; lia). reflexivity. }
  rewrite HP.
  assert (HK : length (firstn k (skipn s pns)) = k).
  { rewrite firstn_length, skipn_length, pns_length. lia. }
  unfold segc. clear HP H. revert HK. generalize (firstn k (skipn s pns)) as l.
  intros l HK. subst k. revert s. induction l as [|pn l IH]; intros s; [reflexivity|].
  cbn [length seq map imap zip3]. f_equal.
  - rewrite Nat.add_0_r. reflexivity.
  - rewrite <- (IH (S s)). f_equal. rewrite <- seq_shift, map_map. apply map_ext. intros i.
    f_equal. lia.
Qed.

Lemma cg_lt : forall j i, fst (cg j i) < P128.
Proof.
  intros. unfold cg, cget. set (k := ci _ _ _ _ _).
  destruct (Nat.lt_ge_cases k (length cws)) as [Hk|Hk].
  - rewrite Forall_forall in HcwsF. apply HcwsF. apply nth_In. auto.
  - rewrite nth_overflow by auto. cbn. lia.
Qed.
Lemma step_lt : forall c b nd, fst c < P128 -> fst (step aes c b nd) < P128.
Proof.
  intros c b [s t] Hc. unfold step. cbn [fst snd]. apply clear_lowest_lt.
  destruct t; [apply lxor_lt_128; auto|]; apply hash_lt.
Qed.
Lemma after_lt : Forall (fun nd => fst nd < P128) (after_levels num_levels).
Proof.
  unfold after_levels.
  assert (HG : forall l s, Forall (fun nd : node => fst nd < P128)
    (imap (fun i pn => walkf aes n num_levels ncw rs cws (seq 0 num_levels) i (fst pn) (snd pn)) s l)).
  { induction l as [|pn l IH]; intros s; cbn [imap]; constructor; auto.
    assert (E : num_levels = S (num_levels - 1)) by lia.
    assert (E2 : walkf aes n num_levels ncw rs cws (seq 0 num_levels) s (fst pn) (snd pn)
              = walkf aes n num_levels ncw rs cws (seq 0 (S (num_levels - 1))) s (fst pn) (snd pn))
      by (f_equal; f_equal; exact E).
    rewrite E2, walkf_S. apply step_lt. apply cg_lt. }
  apply HG.
Qed.
Lemma seg_lt : forall s k, Forall (fun x => x < P128) (map fst (seg num_levels s k)).
Proof.
  intros. rewrite Forall_map. unfold seg. pose proof after_lt as HA.
  rewrite Forall_forall in *. intros x Hx. apply HA. 
  rewrite <- (firstn_skipn s), <- (firstn_skipn k (skipn s _)).
  apply in_or_app. right. apply in_or_app. left. auto.
Qed.

(** Corrections loaded for a segment. *)
Lemma cget_shared : forall j i, cwpl = 1%nat -> cg j i = nth j cws (0, (false, false)).
Proof.
  intros j i H1. unfold cg, cget, ci. destruct Hcw as [(-> & _ & _)|(_ & H2 & H3 & _)]; [|lia].
  rewrite Z.ltb_irrefl. reflexivity.
Qed.
Lemma cget_each : forall j i, cwpl <> 1%nat -> cg j i = nth (j * n + i) cws (0, (false, false)).
Proof.
  intros j i H1. unfold cg, cget, ci. destruct Hcw as [(_ & H2 & _)|(-> & H2 & H3 & _)]; [lia|].
  destruct (Z.ltb_spec (Z.of_nat num_levels) (Z.of_nat (num_levels * n))); [reflexivity|nia].
Qed.
Lemma segc_shared : forall j s k, cwpl = 1%nat ->
  segc j s k = repeat (nth j cws (0, (false, false))) k.
Proof.
  intros j s k H1. unfold segc. erewrite map_ext by (intros; apply cget_shared; auto).
  generalize 0%nat as a. induction k as [|k IH]; intros a; [reflexivity|].
  cbn [seq map repeat]. rewrite IH. reflexivity.
Qed.
Lemma segc_each : forall j s k, cwpl <> 1%nat -> (j < num_levels)%nat -> (s + k <= n)%nat ->
  segc j s k = firstn k (skipn (j * n + s) cws).
Proof.
  intros j s k H1 Hj Hs. unfold segc.
  rewrite (firstn_skipn_nth _ _ _ _ (0, (false, false))).
  - apply map_ext. intros i. rewrite cget_each by auto. f_equal. lia.
  - destruct Hcw as [(_ & H2 & _)|(_ & _ & _ & HL)]; [lia|]. unfold corr in *. nia.
Qed.
Lemma cwpl_each : cwpl <> 1%nat -> cwpl = n /\ length cws = (num_levels * n)%nat.
Proof. intros. destruct Hcw as [(_ & H2 & _)|(_ & -> & _ & ->)]; auto; lia. Qed.
Lemma cws_shared : cwpl = 1%nat -> length cws = num_levels.
Proof. intros. destruct Hcw as [(_ & _ & ->)|(_ & H2 & H3 & _)]; auto; lia. Qed.

Lemma at_or_ub_map : forall A (f : corr -> A) j, (j < length cws)%nat ->
  at_or_ub (map f cws) j = Ok (f (nth j cws (0, (false, false)))).
Proof.
  intros. unfold at_or_ub. rewrite nth_error_map, (nth_error_nth' cws (0, (false, false))) by auto.
  reflexivity.
Qed.
Lemma map_repeat' : forall A B (f : A -> B) x k, map f (repeat x k) = repeat (f x) k.
Proof. induction k; cbn; f_equal; auto. Qed.
Lemma mlanes_repeat : forall b k, mlanes (repeat b k) = repeat b (2 * k).
Proof.
  induction k as [|k IH]; [reflexivity|]. replace (2 * S k)%nat with (S (S (2 * k))) by lia.
  cbn [repeat]. rewrite mlanes_cons, IH. reflexivity.
Qed.
Lemma shared_controls_ok : forall (f : corr -> bool) j s, cwpl = 1%nat -> (j < num_levels)%nat ->
  shared_controls bpv (map f cws) j = Ok (mlanes (map f (segc j s bpv))).
Proof.
  intros f j s H1 Hj. unfold shared_controls. rewrite at_or_ub_map by (rewrite cws_shared; auto).
  cbn [bind]. unfold all_mask, lanes64. rewrite segc_shared, map_repeat', mlanes_repeat by auto. reflexivity.
Qed.

Lemma full_correction_seed_ok : forall j q s, s = (q * bpv)%nat -> (j < num_levels)%nat ->
  (s + bpv <= n)%nat ->
  full_correction_seed bpv cwpl cws j (16 * s) = Ok (lanes_of (map fst (segc j s bpv))).
Proof.
  intros j q s Hs Hj Hsn. unfold full_correction_seed.
  destruct (Nat.eqb_spec cwpl 1) as [E|E].
  - rewrite at_or_ub_map by (rewrite cws_shared; auto). cbn [bind]. unfold load_dup128.
    rewrite segc_shared, map_repeat' by auto. reflexivity.
  - destruct (cwpl_each E) as [E1 E2]. rewrite segc_each by auto.
    replace (16 * (j * cwpl) + 16 * s)%nat with (16 * (j * n + s))%nat by (rewrite E1; lia).
    assert (HB : (j * n + s + bpv <= length (map fst cws))%nat) by (rewrite map_length; unfold corr in *; nia).
    assert (HR : lanes_of (firstn bpv (skipn (j * n + s) (map fst cws)))
                 = lanes_of (map fst (firstn bpv (skipn (j * n + s) cws)))).
    { rewrite <- firstn_map, <- skipn_map. reflexivity. }
    destruct (Nat.eqb_spec (cwpl mod bpv) 0) as [Em|Em]; cbn [orb].
    + rewrite <- HR. apply load_ok with (q := (j * (n / bpv) + q)%nat); auto.
      rewrite E1 in Em. apply Nat.div_exact in Em; [|lia]. subst s.
      rewrite Em at 1. lia.
    + destruct (Nat.eqb_spec j 0) as [->|Ej].
      * rewrite <- HR. apply load_ok with (q := q); auto.
      * rewrite load_u_ok by auto. f_equal. exact HR.
Qed.
Lemma full_controls_ok : forall (f : corr -> bool) j s, (j < num_levels)%nat ->
  (s + bpv <= n)%nat ->
  full_controls bpv cwpl (map f cws) j s = Ok (mlanes (map f (segc j s bpv))).
Proof.
  intros f j s Hj Hs. unfold full_controls. destruct (Nat.eqb_spec cwpl 1) as [E|E].
  - apply shared_controls_ok; auto.
  - destruct (cwpl_each E) as [E1 E2]. rewrite segc_each by auto. rewrite E1.
    rewrite mask_from_bools_full by (rewrite map_length; nia).
    rewrite <- firstn_map, <- skipn_map. reflexivity.
Qed.

Lemma path_bits : forall j l, Forall (fun p => p < P128) l ->
  map (fun x => Nat.ltb (bit_index num_levels rs j) 128
                && N.testbit x (N.of_nat (bit_index num_levels rs j))) l
  = map (fun p => pb p j) l.
Proof.
  intros j l HF. apply map_ext_in. intros p Hp. rewrite Forall_forall in HF. specialize (HF p Hp).
  unfold bit_index, pb, pbit. set (b := (num_levels - j - 1 + rs)%nat).
  destruct (Nat.ltb_spec b 128); auto. cbn [andb]. symmetry. apply testbit_high; auto. lia.
Qed.
Lemma segp_lt : forall s k, Forall (fun p => p < P128) (segp s k).
Proof.
  intros. unfold segp. rewrite Forall_forall in *. intros x Hx. apply HpathsF.
  rewrite <- (firstn_skipn s), <- (firstn_skipn k (skipn s _)).
  apply in_or_app. right. apply in_or_app. left. auto.
Qed.

(** One level of a full vector. *)
Lemma full_level_ok : forall j q s, s = (q * bpv)%nat -> (j < num_levels)%nat ->
  (s + bpv <= n)%nat ->
  full_level bpv num_levels cwpl rs cws (16 * s) (lanes_of (segp s bpv)) j
    (hash_level bpv aes_round aes_last round_key num_levels rs (lanes_of (segp s bpv)) j
       (fst (enc (seg j s bpv))))
    (snd (enc (seg j s bpv)))
  = Ok (enc (seg (S j) s bpv)).
Proof.
  intros j q s Hs Hj Hsn. unfold full_level, hash_level.
  replace (16 * s / 16)%nat with s by lia.
  rewrite (full_correction_seed_ok j q s) by auto. cbn [bind].
  rewrite !full_controls_ok by auto. cbn [bind].
  rewrite is_bit_set_lanes by (apply segp_length; auto).
  rewrite path_bits by apply segp_lt. f_equal. cbn [enc fst snd].
  rewrite (vector_level_enc bpv aes_round aes_last round_key (segc j s bpv)).
  - f_equal. apply seg_step. auto.
  - apply segc_length.
  - rewrite map_length. apply segp_length. auto.
  - apply seg_length. auto.
Qed.

(** The state of the output arrays once the seeds before [s] are done. *)
Variable ins : option outs.
Variable o0 : outs.
Hypothesis Hins : rd ins o0 = (seeds, bits).
Hypothesis Ho1 : length (fst o0) = n.
Hypothesis Ho2 : length (snd o0) = n.
Definition Inv (s : nat) (o : outs) : Prop :=
  (s <= n)%nat
  /\ fst o = map fst (firstn s (after_levels num_levels)) ++ skipn s (fst o0)
  /\ snd o = map snd (firstn s (after_levels num_levels)) ++ skipn s (snd o0).

Lemma inv_length : forall s o, Inv s o -> length (fst o) = n /\ length (snd o) = n.
Proof.
  intros s o (Hs & -> & ->). rewrite !app_length, !map_length, !firstn_length, !skipn_length, after_length. lia.
Qed.
Lemma inv_rd : forall s o s', Inv s o -> (s <= s')%nat ->
  skipn s' (fst (rd ins o)) = skipn s' seeds /\ skipn s' (snd (rd ins o)) = skipn s' bits
  /\ length (fst (rd ins o)) = n /\ length (snd (rd ins o)) = n.
Proof.
  intros s o s' HI Hs. pose proof (inv_length s o HI) as [HL1 HL2].
  unfold rd in *. destruct ins as [a|].
  - rewrite Hins. cbn [fst snd]. auto.
  - destruct HI as (Hsn & E1 & E2). rewrite E1, E2, Hins in *. cbn [fst snd] in *.
    assert (HF : forall A B (f : A -> B) (l : list A) (m : list B), length (firstn s l) = s ->
       skipn s' (map f (firstn s l) ++ skipn s m) = skipn s' m).
    { clear - Hs. intros A B f l m HL. rewrite skipn_app, map_length, HL.
      rewrite skipn_all2 by (rewrite map_length; lia). cbn [app]. rewrite skipn_skipn'.
      f_equal. lia. }
    rewrite !HF by (rewrite firstn_length, after_length; lia). auto.
Qed.

Lemma full_load_ok : forall s o q s', Inv s o -> (s <= s')%nat -> s' = (q * bpv)%nat ->
  (s' + bpv <= n)%nat ->
  full_load bpv ins paths o (16 * s') = Ok (lanes_of (segp s' bpv), enc (seg 0 s' bpv)).
Proof.
  intros s o q s' HI Hs Hq Hn'. destruct (inv_rd s o s' HI Hs) as (E1 & E2 & L1 & L2).
  unfold full_load. replace (16 * s' / 16)%nat with s' by lia.
  rewrite (load_ok _ q) by (auto; lia). cbn [bind].
  rewrite (load_ok _ q) by (auto; lia). cbn [bind].
  rewrite mask_from_bools_full by lia. cbn [bind]. rewrite E1, E2.
  unfold enc, segp. rewrite seg_zero_fst, seg_zero_snd. reflexivity.
Qed.

Lemma inv_write : forall s k o, Inv s o -> (s + k <= n)%nat ->
  Inv (s + k) (firstn s (fst o) ++ map fst (seg num_levels s k) ++ skipn (s + k) (fst o),
               firstn s (snd o) ++ map snd (seg num_levels s k) ++ skipn (s + k) (snd o)).
Proof.
  intros s k o (Hs & E1 & E2) Hk. split; [auto|]. cbn [fst snd]. rewrite E1, E2.
  assert (HW : forall B (f : node -> B) (m : list B),
    firstn s (map f (firstn s (after_levels num_levels)) ++ skipn s m)
    ++ map f (seg num_levels s k)
    ++ skipn (s + k) (map f (firstn s (after_levels num_levels)) ++ skipn s m)
    = map f (firstn (s + k) (after_levels num_levels)) ++ skipn (s + k) m).
  { intros B f m.
    assert (HL : length (map f (firstn s (after_levels num_levels))) = s)
      by (rewrite map_length, firstn_length, after_length; lia).
    rewrite firstn_app_exact by auto. rewrite firstn_add, map_app, <- app_assoc. f_equal.
    fold (seg num_levels s k). f_equal. rewrite skipn_app, HL.
    rewrite skipn_all2 by lia. cbn [app]. rewrite skipn_skipn'. f_equal. lia. }
  split; apply HW.
Qed.

Lemma full_store_ok : forall s o q, Inv s o -> s = (q * bpv)%nat -> (s + bpv <= n)%nat ->
  exists o', full_store bpv (enc (seg num_levels s bpv)) o (16 * s) = Ok o' /\ Inv (s + bpv) o'.
Proof.
  intros s o q HI Hq Hsn. destruct (inv_length s o HI) as [L1 L2]. unfold full_store, enc.
  cbn [fst snd]. replace (16 * s / 16)%nat with s by lia.
  assert (HLs : length (seg num_levels s bpv) = bpv) by (apply seg_length; auto).
  rewrite (store_ok _ _ q) by (auto; rewrite ?map_length; auto using seg_lt; lia). cbn [bind].
  pose proof (bools_from_mask_lanes (map snd (seg num_levels s bpv)) (snd o) s 0) as HB.
  unfold node in *. rewrite map_length, HLs in HB. specialize (HB eq_refl ltac:(lia) []). rewrite app_nil_r in HB.
  rewrite HB. cbn [bind]. eexists. split; [reflexivity|]. apply inv_write; auto.
Qed.

Lemma one_iteration_ok : forall s o q, Inv s o -> s = (q * bpv)%nat -> (s + bpv <= n)%nat ->
  exists o', one_iteration bpv aes_round aes_last round_key num_levels cwpl rs cws ins paths o (16 * s)
             = Ok o' /\ Inv (s + bpv) o'.
Proof.
  intros s o q HI Hq Hsn. unfold one_iteration.
  rewrite (full_load_ok s o q) by auto. cbn [bind].
  destruct (foldM_inv _ (fun (s0 : vstate) j => full_level bpv num_levels cwpl rs cws (16 * s) (lanes_of (segp s bpv)) j
      (hash_level bpv aes_round aes_last round_key num_levels rs (lanes_of (segp s bpv)) j (fst s0)) (snd s0))
     (fun j st => st = enc (seg j s bpv)) num_levels (enc (seg 0 s bpv)) eq_refl) as (st & E & ->).
  - intros j st Hj ->. eexists. split; [|reflexivity]. apply (full_level_ok j q s); auto.
  - rewrite E. cbn [bind]. eapply full_store_ok; eauto.
Qed.

Lemma four_iteration_ok : forall s o q, Inv s o -> s = (q * bpv)%nat -> (s + 4 * bpv <= n)%nat ->
  exists o', four_iteration bpv aes_round aes_last round_key num_levels cwpl rs cws ins paths o (16 * s)
             = Ok o' /\ Inv (s + 4 * bpv) o'.
Proof.
  intros s o q HI Hq Hsn. unfold four_iteration, bytes_per_vec.
  replace (16 * s + 1 * (16 * bpv))%nat with (16 * (s + bpv))%nat by lia.
  replace (16 * s + 2 * (16 * bpv))%nat with (16 * (s + 2 * bpv))%nat by lia.
  replace (16 * s + 3 * (16 * bpv))%nat with (16 * (s + 3 * bpv))%nat by lia.
  rewrite (full_load_ok s o q) by auto with zarith.
  rewrite (full_load_ok s o (q + 1)) by (auto; nia).
  rewrite (full_load_ok s o (q + 2)) by (auto; nia).
  rewrite (full_load_ok s o (q + 3)) by (auto; nia). cbn [bind].
  match goal with |- context [foldM ?f _ _] => set (F := f) end.
  destruct (foldM_inv _ F
    (fun j st => st = (enc (seg j s bpv), enc (seg j (s + bpv) bpv), enc (seg j (s + 2 * bpv) bpv),
                       enc (seg j (s + 3 * bpv) bpv))) num_levels
     (enc (seg 0 s bpv), enc (seg 0 (s + bpv) bpv), enc (seg 0 (s + 2 * bpv) bpv),
                       enc (seg 0 (s + 3 * bpv) bpv)) eq_refl) as (st & E & ->).
  - intros j st Hj ->. eexists. split; [|reflexivity]. unfold F.
    rewrite (full_level_ok j q s) by (auto; lia). cbn [bind].
    rewrite (full_level_ok j (q + 1) (s + bpv)) by (auto; nia). cbn [bind].
    rewrite (full_level_ok j (q + 2) (s + 2 * bpv)) by (auto; nia). cbn [bind].
    rewrite (full_level_ok j (q + 3) (s + 3 * bpv)) by (auto; nia). reflexivity.
  - rewrite E. cbn [bind].
    destruct (full_store_ok s o q) as (o1 & E1 & I1); auto; try lia. rewrite E1. cbn [bind].
    destruct (full_store_ok (s + bpv) o1 (q + 1)) as (o2 & E2 & I2); auto; try nia. rewrite E2. cbn [bind].
    replace (s + bpv + bpv)%nat with (s + 2 * bpv)%nat in I2 by lia.
    destruct (full_store_ok (s + 2 * bpv) o2 (q + 2)) as (o3 & E3 & I3); auto; try nia. rewrite E3. cbn [bind].
    replace (s + 2 * bpv + bpv)%nat with (s + 3 * bpv)%nat in I3 by lia.
    destruct (full_store_ok (s + 3 * bpv) o3 (q + 3)) as (o4 & E4 & I4); auto; try nia. rewrite E4.
    replace (s + 3 * bpv + bpv)%nat with (s + 4 * bpv)%nat in I4 by lia. eauto.
Qed.

(** The loops stop at a block that is a multiple of the vector size, with less than a
    step left. *)
Lemma vector_loop_ok : forall m body, (0 < m)%nat ->
  (forall s o q, Inv s o -> s = (q * bpv)%nat -> (s + m * bpv <= n)%nat ->
     exists o', body o (16 * s)%nat = Ok o' /\ Inv (s + m * bpv) o') ->
  forall fuel s o q, Inv s o -> s = (q * bpv)%nat -> (n - s <= fuel)%nat ->
  exists o' s' q', vector_loop n fuel (16 * (m * bpv)) body o (16 * s) = Ok (o', (16 * s')%nat)
    /\ Inv s' o' /\ s' = (q' * bpv)%nat /\ (n < s' + m * bpv)%nat.
Proof.
  intros m body Hm Hbody. induction fuel as [|fuel IH]; intros s o q HI Hq Hf; cbn [vector_loop].
  - exists o, s, q. destruct HI as (? & ? & ?). repeat split; auto. nia.
  - destruct (Nat.leb_spec (16 * s + 16 * (m * bpv)) (16 * n)) as [Hle|Hgt].
    + destruct (Hbody s o q HI Hq ltac:(lia)) as (o1 & E1 & I1). rewrite E1. cbn [bind].
      replace (16 * s + 16 * (m * bpv))%nat with (16 * (s + m * bpv))%nat by lia.
      apply (IH (s + m * bpv)%nat o1 (q + m)%nat); auto; nia.
    + exists o, s, q. repeat split; auto; try (apply HI); lia.
Qed.

(** * The elements less than a full vector *)
Lemma masked_load_ok : forall mem q s k, s = (q * bpv)%nat -> (s + bpv <= length mem)%nat ->
  (k <= bpv)%nat ->
  masked_load bpv (16 * k) mem (16 * s) = Ok (lanes_of (firstn k (skipn s mem) ++ repeat 0 (bpv - k))).
Proof.
  intros mem q s k Hs HL Hk. unfold masked_load. rewrite (load_ok _ q) by auto. cbn [bind].
  replace (16 * k / 8)%nat with (2 * k)%nat by lia. f_equal. rewrite lanes_app.
  assert (HF : length (firstn bpv (skipn s mem)) = bpv) by (rewrite firstn_length, skipn_length; lia).
  rewrite lanes_length, HF.
  replace bpv with (k + (bpv - k))%nat at 1 by lia. rewrite firstn_add, lanes_app.
  rewrite firstn_app_exact.
  2:{ rewrite lanes_length, firstn_length, skipn_length. lia. }
  f_equal. replace (2 * bpv - 2 * k)%nat with (2 * (bpv - k))%nat by lia.
  clear. induction (bpv - k)%nat as [|m IH]; [reflexivity|].
  replace (2 * S m)%nat with (S (S (2 * m))) by lia. cbn [repeat]. rewrite lanes_cons, IH. reflexivity.
Qed.

Lemma path_bits_pad : forall j l k, Forall (fun p => p < P128) l ->
  map (fun x => Nat.ltb (bit_index num_levels rs j) 128
                && N.testbit x (N.of_nat (bit_index num_levels rs j))) (l ++ repeat 0 k)
  = map (fun p => pb p j) l ++ map (fun p => pb p j) (repeat 0 k).
Proof.
  intros. rewrite <- map_app. apply path_bits. apply Forall_app. split; auto.
  apply Forall_forall. intros x Hx. apply repeat_spec in Hx. subst. lia.
Qed.

Lemma firstn_of_app : forall A (a b : list A) k, (k <= length a)%nat -> firstn k (a ++ b) = firstn k a.
Proof. intros. rewrite firstn_app. replace (k - length a)%nat with 0%nat by lia. cbn. apply app_nil_r. Qed.

Lemma rest_ok : forall s o q buffer, Inv s o -> s = (q * bpv)%nat -> (n < s + bpv)%nat ->
  length buffer = (2 * bpv)%nat ->
  exists o', rest bpv aes_round aes_last round_key n num_levels cwpl rs cws ins paths buffer o (16 * s)
             = Ok o' /\ Inv n o'.
Proof.
  intros s o q buffer HI Hq Hn' Hbuf. unfold rest. replace (16 * s / 16)%nat with s by lia.
  assert (Hsn : (s <= n)%nat) by apply HI.
  set (k := (n - s)%nat).
  destruct (Nat.ltb_spec 0 k) as [Hk|Hk].
  2:{ exists o. split; auto. replace n with s by (unfold k in Hk; lia). auto. }
  assert (Hkb : (k < bpv)%nat) by (unfold k; lia). assert (Hskn : (s + k)%nat = n) by (unfold k; lia).
  replace (16 * n - 16 * s)%nat with (16 * k)%nat by (unfold k; lia).
  clearbody k.
  destruct (inv_rd s o s HI (le_n _)) as (E1 & E2 & L1 & L2).
  rewrite read_array_ok by lia. cbn [bind]. rewrite E1.
  assert (HLs : length (firstn k (skipn s seeds)) = k) by (rewrite firstn_length, skipn_length; lia).
  rewrite write_array_ok by (rewrite HLs; lia). cbn [bind firstn app Nat.add]. rewrite HLs.
  rewrite read_array_ok by lia. cbn [bind]. fold (segp s k).
  assert (HLp : length (segp s k) = k) by (apply segp_length; lia).
  set (b1 := firstn k (skipn s seeds) ++ skipn k buffer).
  assert (Hb1 : length b1 = (2 * bpv)%nat) by (unfold b1; rewrite app_length, HLs, skipn_length; lia).
  rewrite write_array_ok by (rewrite HLp; lia). cbn [bind]. rewrite HLp.
  set (b2 := firstn bpv b1 ++ segp s k ++ skipn (bpv + k) b1).
  assert (Hb2 : length b2 = (2 * bpv)%nat).
  { unfold b2. rewrite !app_length, HLp, firstn_length, skipn_length. lia. }
  change (masked_load bpv (16 * k) b2 0) with (masked_load bpv (16 * k) b2 (16 * 0)).
  rewrite (masked_load_ok b2 0 0 k) by lia. cbn [bind].
  unfold bytes_per_vec. rewrite (masked_load_ok _ 1) by lia. cbn [bind].
  rewrite mask_from_bools_part by lia. cbn [bind]. rewrite E2.
  assert (Hr1 : firstn k (skipn 0 b2) = map fst (seg 0 s k)).
  { cbn [skipn]. unfold b2. rewrite firstn_of_app by (rewrite firstn_length; lia).
    rewrite firstn_firstn. replace (Nat.min k bpv) with k by lia.
    unfold b1. rewrite firstn_app_exact by auto. rewrite seg_zero_fst. reflexivity. }
  assert (Hr2 : firstn k (skipn bpv b2) = segp s k).
  { unfold b2. rewrite skipn_app_exact by (rewrite firstn_length; lia).
    apply firstn_app_exact. auto. }
  rewrite Hr1, Hr2, <- seg_zero_snd.
  match goal with |- context [foldM ?f _ _] => set (F := f) end.
  destruct (foldM_inv _ F
    (fun j st => exists b pad, length b = (2 * bpv)%nat /\ length pad = (bpv - k)%nat
        /\ st = (b, fst (enc (seg j s k ++ pad)), snd (enc (seg j s k ++ pad))))
    num_levels (b2, lanes_of (map fst (seg 0 s k) ++ repeat 0 (bpv - k)),
        mlanes (map snd (seg 0 s k) ++ repeat false (bpv - k))))
    as (st & E & bN & padN & HbN & HpadN & ->).
  - exists b2, (repeat (0, false) (bpv - k)). rewrite repeat_length. repeat split; auto.
    unfold enc. cbn [fst snd]. rewrite !map_app, !map_repeat'. reflexivity.
  - intros j st Hj (b & pad & Hb & Hpad & ->). unfold F. clear F.
    assert (HLseg : length (seg j s k) = k) by (apply seg_length; lia).
    rewrite is_bit_set_lanes by (rewrite app_length, HLp, repeat_length; lia).
    rewrite path_bits_pad by apply segp_lt. cbn [enc fst snd].
    (* the corrections of the padding do not matter *)
    assert (HV : forall cpad, length cpad = (bpv - k)%nat ->
      exists pad', length pad' = (bpv - k)%nat /\
      vector_level bpv (mlanes (map (fun p => pb p j) (segp s k) ++ map (fun p => pb p j) (repeat 0 (bpv - k))))
        (lanes_of (map fst (segc j s k ++ cpad))) (mlanes (map cl (segc j s k ++ cpad)))
        (mlanes (map cr (segc j s k ++ cpad)))
        (hash_one_with_key_mask bpv aes_round aes_last round_key (lanes_of (map fst (seg j s k ++ pad)))
           (mlanes (map (fun p => pb p j) (segp s k) ++ map (fun p => pb p j) (repeat 0 (bpv - k))))
           kPrgKeyLeft kPrgKeyRight)
        (mlanes (map snd (seg j s k ++ pad)))
      = enc (seg (S j) s k ++ pad')).
    { intros cpad Hcpad. rewrite vector_level_enc.
      - rewrite zip3_app by (unfold node in *; rewrite ?map_length, ?segc_length; lia).
        rewrite seg_step by lia. eexists. split; [|reflexivity].
        rewrite zip3_length; rewrite ?map_length, ?repeat_length; unfold node, corr in *; lia.
      - rewrite app_length, segc_length. unfold corr in *; lia.
      - rewrite app_length, !map_length, repeat_length. lia.
      - rewrite app_length. unfold node in *. lia. }
    destruct (Nat.eqb_spec cwpl 1) as [Ec|Ec].
    + rewrite at_or_ub_map by (rewrite cws_shared; auto). cbn [bind].
      rewrite (shared_controls_ok _ j s Ec Hj). rewrite (shared_controls_ok _ j s Ec Hj). cbn [bind].
      set (c := nth j cws (0, (false, false))).
      destruct (HV (repeat c (bpv - k)) (repeat_length _ _)) as (pad' & Hpad' & EV).
      assert (HR : segc j s k ++ repeat c (bpv - k) = repeat c bpv).
      { rewrite segc_shared by auto. fold c. rewrite <- repeat_app. f_equal. clear - Hkb. lia. }
      rewrite HR in EV. rewrite segc_shared by auto. fold c. unfold load_dup128.
      rewrite !map_repeat' in EV. rewrite !map_repeat'.
      unfold cl, cr in EV. rewrite EV. cbn [enc].
      eexists. split; [reflexivity|]. exists b, pad'. repeat split; auto.
    + destruct (cwpl_each Ec) as [Ecn Ecl]. rewrite Ecn.
      rewrite read_array_ok by (rewrite map_length; unfold corr in *; nia). cbn [bind].
      assert (HC : firstn k (skipn (j * n + s) (map fst cws)) = map fst (segc j s k)).
      { rewrite segc_each by (auto; lia). rewrite <- firstn_map, <- skipn_map. reflexivity. }
      rewrite HC. rewrite write_array_ok by (rewrite map_length, segc_length; lia).
      cbn [bind firstn app Nat.add]. rewrite map_length, segc_length.
      set (b' := map fst (segc j s k) ++ skipn k b).
      assert (Hb' : length b' = (2 * bpv)%nat).
      { unfold b'. rewrite app_length, map_length, segc_length, skipn_length. lia. }
      change (masked_load bpv (16 * k) b' 0) with (masked_load bpv (16 * k) b' (16 * 0)).
      rewrite (masked_load_ok b' 0 0 k) by lia. cbn [bind skipn].
      rewrite !mask_from_bools_part by (rewrite ?map_length; unfold corr in *; nia). cbn [bind].
      assert (HCf : forall (f : corr -> bool), firstn k (skipn (j * n + s) (map f cws)) = map f (segc j s k)).
      { intros f. rewrite segc_each by (auto; lia). rewrite <- firstn_map, <- skipn_map. reflexivity. }
      rewrite !HCf. unfold b' at 1. rewrite firstn_app_exact by (rewrite map_length; apply segc_length).
      destruct (HV (repeat (0, (false, false)) (bpv - k)) (repeat_length _ _)) as (pad' & Hpad' & EV).
      rewrite !map_app, !map_repeat' in EV. rewrite !map_app, ?map_repeat'.
      unfold cl, cr in EV. cbn [fst snd] in EV. unfold corr, node in *. rewrite EV. cbn [enc].
      eexists. split; [reflexivity|]. exists b', pad'. repeat split; auto.
  - rewrite E. cbn [bind enc fst snd]. unfold node in *.
    assert (HLseg : length (seg num_levels s k) = k) by (apply seg_length; nlia).
    assert (HLm : length (seg num_levels s k ++ padN) = bpv) by (rewrite app_length; nlia).
    unfold store. replace (0 mod (16 * bpv))%nat with 0%nat
      by (symmetry; apply Nat.mod_0_l; nlia). cbn [Nat.eqb].
    unfold bytes_per_vec. replace (0 mod (16 * bpv))%nat with 0%nat
      by (symmetry; apply Nat.mod_0_l; nlia). cbn [Nat.eqb].
    change (0 / 16)%nat with 0%nat. rewrite blocks_lanes.
    rewrite write_array_ok by (rewrite !map_length; nlia). cbn [bind firstn app Nat.add].
    rewrite !map_length.
    rewrite read_array_ok by (rewrite app_length, !map_length, skipn_length; nlia).
    cbn [bind skipn].
    assert (HX : forall tail, firstn k (map w128 (map fst (seg num_levels s k ++ padN)) ++ tail)
                 = map fst (seg num_levels s k)).
    { intros tail. rewrite !map_app, <- app_assoc. rewrite firstn_app_exact by (rewrite !map_length; auto).
      rewrite map_map. apply map_ext_in. intros x Hx. apply w128_small.
      pose proof (seg_lt s k) as HF. rewrite Forall_map, Forall_forall in HF. auto. }
    unfold node in *. rewrite HX. destruct (inv_length s o HI) as [Lo1 Lo2].
    rewrite write_array_ok by (rewrite map_length; nlia). cbn [bind].
    rewrite map_app. rewrite bools_from_mask_lanes.
    + cbn [bind]. rewrite !map_length, HLseg. eexists. split; [reflexivity|].
      replace n with (s + k)%nat at 1 by auto. apply inv_write; auto. nlia.
    + rewrite map_length, HLseg. destruct (Nat.ltb_spec 0 k); nlia.
    + rewrite map_length. nlia.
Qed.

Theorem hwy_vectors_ok : forall buffer, length buffer = (2 * bpv)%nat ->
  hwy_vectors bpv aes_round aes_last round_key n num_levels cwpl rs cws ins paths buffer o0
  = Ok (map fst (after_levels num_levels), map snd (after_levels num_levels)).
Proof.
  intros buffer Hbuf. unfold hwy_vectors, bytes_per_vec.
  assert (I0 : Inv 0 o0). { split; [lia|]. cbn [firstn map app skipn]. auto. }
  destruct (vector_loop_ok 4 (four_iteration bpv aes_round aes_last round_key num_levels cwpl rs cws ins paths)
     ltac:(lia) four_iteration_ok (16 * n) 0 o0 0 I0 ltac:(lia) ltac:(lia)) as (o1 & s1 & q1 & E1 & I1 & Hq1 & _).
  replace (4 * (16 * bpv))%nat with (16 * (4 * bpv))%nat by lia.
  replace (16 * 0)%nat with 0%nat in E1 by lia. rewrite E1. cbn [bind].
  destruct (vector_loop_ok 1 (one_iteration bpv aes_round aes_last round_key num_levels cwpl rs cws ins paths)
     ltac:(lia)) with (fuel := (16 * n)%nat) (s := s1) (o := o1) (q := q1) as (o2 & s2 & q2 & E2 & I2 & Hq2 & Hlt); auto.
  { intros s o q HI Hq Hs. rewrite Nat.mul_1_l in *. eapply one_iteration_ok; eauto. }
  { lia. }
  rewrite Nat.mul_1_l in E2. rewrite E2. cbn [bind].
  destruct (rest_ok s2 o2 q2 buffer) as (o3 & E3 & I3); auto; try lia.
  rewrite E3. destruct I3 as (_ & F1 & F2). destruct o3 as [os ob]. cbn [fst snd] in F1, F2.
  rewrite <- (after_length num_levels), firstn_all in F1, F2.
  rewrite after_length in F1, F2.
  rewrite skipn_all2 in F1, F2 by lia. rewrite app_nil_r in F1, F2. subst. reflexivity.
Qed.
End Call.
End Aes.
End Width.
