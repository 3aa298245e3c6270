(** Property C75: the fixed-key hash on spans that overlap. *)
From Coq Require Import List NArith ZArith Lia Bool ZifyBool ZifyNat ZifyN.
From Verif Require Import Base ListUtil ValueTypesModel DpfModel DpfTree PirIpProofs PrgMemModel.
Import ListNotations.
Open Scope N_scope.
Ltac Zify.zify_post_hook ::= Z.div_mod_to_equations.

(** * Memory *)

Lemma nth_set : forall (l : list N) i x j, (i < length l)%nat -> nth j (set_nth l i x) 0 = if Nat.eqb j i then x else nth j l 0.
Proof.
  induction l as [|y l IH]; intros [|i] x j H; cbn [length] in H; try lia; destruct j as [|j]; cbn [set_nth nth Nat.eqb]; try reflexivity.
  apply IH. lia.
Qed.
Lemma len_set : forall (l : list N) i x, length (set_nth l i x) = length l.
Proof. induction l as [|y l IH]; intros [|i] x; cbn [set_nth length]; auto. Qed.
Lemma at_ub : forall (l : list N) i, (i < length l)%nat -> at_or_ub l i = Ok (nth i l 0).
Proof. intros l i H. unfold at_or_ub. rewrite (nth_error_nth' l 0 H). reflexivity. Qed.
(** [mem'] is [mem] with the words [f 0], [f 1], ... at [addr]. *)
Definition patched (mem mem' : list N) (addr size : nat) (f : nat -> N) : Prop :=
  length mem' = length mem /\
  forall p, nth p mem' 0 = if Nat.leb addr p && Nat.ltb p (addr + size) then f (p - addr)%nat else nth p mem 0.

Lemma store_all_spec : forall xs mem addr, (addr + length xs <= length mem)%nat ->
  exists mem', store_all mem addr xs = Ok mem' /\ patched mem mem' addr (length xs) (fun i => nth i xs 0).
Proof.
  induction xs as [|x xs IH]; intros mem addr H; cbn [store_all length] in *.
  - exists mem. split; [reflexivity|]. split; [reflexivity|]. intros p.
    destruct (Nat.leb_spec addr p), (Nat.ltb_spec p (addr + 0)); cbn [andb]; try reflexivity. lia.
  - unfold store. destruct (Nat.ltb_spec addr (length mem)); [|lia]. cbn [bind].
    destruct (IH (set_nth mem addr x) (S addr)) as (mem' & E & L & HN); [rewrite len_set; lia|].
    exists mem'. split; [exact E|]. split; [rewrite L; apply len_set|]. intros p. rewrite HN, nth_set by assumption.
    destruct (Nat.eqb_spec p addr) as [->|NE].
    + destruct (Nat.leb_spec (S addr) addr); [lia|]. cbn [andb]. rewrite Nat.leb_refl. destruct (Nat.ltb_spec addr (addr + S (length xs))); [|lia].
      cbn [andb]. rewrite Nat.sub_diag. reflexivity.
    + destruct (Nat.leb_spec (S addr) p), (Nat.leb_spec addr p); try lia; cbn [andb]; try reflexivity.
      replace (addr + S (length xs))%nat with (S addr + length xs)%nat by lia. destruct (Nat.ltb_spec p (S addr + length xs)); [|reflexivity].
      replace (p - addr)%nat with (S (p - S addr)) by lia. reflexivity.
Qed.
Lemma xor_all_spec : forall xs mem addr, (addr + length xs <= length mem)%nat ->
  exists mem', xor_all mem addr xs = Ok mem' /\ patched mem mem' addr (length xs) (fun i => N.lxor (nth (addr + i) mem 0) (nth i xs 0)).
Proof.
  induction xs as [|x xs IH]; intros mem addr H; cbn [xor_all length] in *.
  - exists mem. split; [reflexivity|]. split; [reflexivity|]. intros p.
    destruct (Nat.leb_spec addr p), (Nat.ltb_spec p (addr + 0)); cbn [andb]; try reflexivity. lia.
  - rewrite at_ub by lia. cbn [bind]. unfold store. destruct (Nat.ltb_spec addr (length mem)); [|lia]. cbn [bind].
    destruct (IH (set_nth mem addr (N.lxor (nth addr mem 0) x)) (S addr)) as (mem' & E & L & HN); [rewrite len_set; lia|].
    exists mem'. split; [exact E|]. split; [rewrite L; apply len_set|]. intros p. rewrite HN.
    rewrite !nth_set by assumption.
    destruct (Nat.eqb_spec p addr) as [->|NE].
    + destruct (Nat.leb_spec (S addr) addr); [lia|]. cbn [andb]. rewrite Nat.leb_refl. destruct (Nat.ltb_spec addr (addr + S (length xs))); [|lia].
      cbn [andb]. rewrite Nat.sub_diag, Nat.add_0_r. reflexivity.
    + destruct (Nat.leb_spec (S addr) p), (Nat.leb_spec addr p); try lia; cbn [andb]; try reflexivity.
      replace (addr + S (length xs))%nat with (S addr + length xs)%nat by lia. destruct (Nat.ltb_spec p (S addr + length xs)); [|reflexivity].
      rewrite (proj2 (Nat.eqb_neq (S addr + (p - S addr)) addr)) by lia.
      replace (p - addr)%nat with (S (p - S addr)) by lia. cbn [nth]. do 2 f_equal. lia.
Qed.

Section Hash.
Variables (aes : N -> N -> N) (key : N).
Let H (x : N) : N := hash aes key x.

Lemma batch_spec : forall inp out size mem start, (inp + size <= length mem)%nat -> (out + size <= length mem)%nat -> (start < size)%nat ->
  exists mem', evaluate_batch aes key inp out size mem start = Ok mem' /\
    patched mem mem' (out + start) (Nat.min (size - start) batch_size) (fun i => H (nth (inp + start + i) mem 0)).
Proof.
  intros inp out size mem start Hi Ho Hs. unfold evaluate_batch. set (bs := Nat.min (size - start) batch_size).
  assert (HB : (bs <= size - start)%nat) by (unfold bs; apply Nat.le_min_l).
  rewrite (mapM_map_ok _ _ _ (fun i => sigma (nth (inp + start + i) mem 0))).
  2: { intros i Hin. apply in_seq in Hin. rewrite at_ub by (clear - Hi Hin HB Hs; lia). reflexivity. }
  cbn [bind]. set (sg := map (fun i => sigma (nth (inp + start + i) mem 0)) (seq 0 bs)).
  assert (LS : length sg = bs) by (unfold sg; rewrite map_length, seq_length; reflexivity).
  assert (NS : forall i, (i < bs)%nat -> nth i sg 0 = sigma (nth (inp + start + i) mem 0)).
  { intros i Hlt. unfold sg. rewrite (nth_indep _ 0 (sigma (nth (inp + start + 0) mem 0))) by (rewrite map_length, seq_length; exact Hlt).
    rewrite (map_nth (fun i => sigma (nth (inp + start + i) mem 0)) (seq 0 bs) 0%nat). rewrite seq_nth by exact Hlt. reflexivity. }
  destruct (store_all_spec (map (aes key) sg) mem (out + start)) as (m1 & E1 & L1 & N1); [rewrite map_length, LS; clear - Ho HB Hs; lia|].
  rewrite E1. cbn [bind]. destruct (xor_all_spec sg m1 (out + start)) as (m2 & E2 & L2 & N2); [rewrite L1, LS; clear - Ho HB Hs; lia|].
  exists m2. split; [exact E2|]. split; [congruence|]. intros p. rewrite N2, LS.
  rewrite map_length, LS in N1. destruct (Nat.leb_spec (out + start) p) as [C1|C1], (Nat.ltb_spec p (out + start + bs)) as [C2|C2]; cbn [andb].
  - assert (Hp : (p - (out + start) < bs)%nat) by (clear - C1 C2; lia). rewrite (N1 (out + start + (p - (out + start)))%nat).
    destruct (Nat.leb_spec (out + start) (out + start + (p - (out + start)))); [|exfalso; clear - H0; lia].
    destruct (Nat.ltb_spec (out + start + (p - (out + start))) (out + start + bs)); [|exfalso; clear - H1 Hp; lia]. cbn [andb].
    replace (out + start + (p - (out + start)) - (out + start))%nat with (p - (out + start))%nat by (clear; lia).
    unfold H, hash. rewrite <- (NS _ Hp). f_equal. rewrite (nth_indep _ 0 (aes key 0)) by (rewrite map_length, LS; exact Hp). apply map_nth.
  - rewrite N1. destruct (Nat.leb_spec (out + start) p), (Nat.ltb_spec p (out + start + bs)); cbn [andb]; try reflexivity. exfalso. clear - H1 C2. lia.
  - rewrite N1. destruct (Nat.leb_spec (out + start) p), (Nat.ltb_spec p (out + start + bs)); cbn [andb]; try reflexivity. exfalso. clear - H0 C1. lia.
  - rewrite N1. destruct (Nat.leb_spec (out + start) p), (Nat.ltb_spec p (out + start + bs)); cbn [andb]; try reflexivity. exfalso. clear - H0 C1. lia.
Qed.

(** Block [j] of the input was overwritten by an earlier batch: its address is in the part of the
    output that the batches before its own have written. *)
Definition overwritten (inp out j : nat) : bool :=
  Nat.leb out (inp + j) && Nat.ltb (inp + j) (out + batch_size * Nat.div j batch_size).
(** What is in memory after the first [done] blocks. *)
Definition progress (inp out : nat) (mem mem' : list N) (done : nat) : Prop :=
  length mem' = length mem /\
  (forall p, (p < out \/ out + done <= p)%nat -> nth p mem' 0 = nth p mem 0) /\
  (forall j, (j < done)%nat -> nth (out + j) mem' 0 = H (nth (inp + j) (if overwritten inp out j then mem' else mem) 0)).

Lemma batches_spec : forall inp out size mem, (inp + size <= length mem)%nat -> (out + size <= length mem)%nat ->
  forall n, (n <= Nat.div (size + (batch_size - 1)) batch_size)%nat ->
  exists mem', foldM (evaluate_batch aes key inp out size) (map (fun b => b * batch_size)%nat (seq 0 n)) mem = Ok mem' /\
    progress inp out mem mem' (Nat.min size (n * batch_size)).
Proof.
  intros inp out size mem Hi Ho. induction n as [|n IH]; intros Hn.
  - exists mem. split; [reflexivity|]. split; [reflexivity|]. split; [reflexivity|]. intros j Hj. exfalso. clear - Hj. lia.
  - destruct IH as (m1 & E1 & L1 & O1 & P1); [clear - Hn; lia|]. rewrite seq_S, map_app, foldM_app, E1. cbn [bind map foldM Nat.add].
    change batch_size with 64%nat in *.
    assert (Hs : (n * 64 < size)%nat) by (clear - Hn; lia).
    destruct (batch_spec inp out size m1 (n * 64)) as (m2 & E2 & L2 & N2); [clear - Hi L1; lia|clear - Ho L1; lia|exact Hs|].
    change batch_size with 64%nat in *. rewrite E2. cbn [bind]. exists m2. split; [reflexivity|].
    set (bs := Nat.min (size - n * 64) 64) in *.
    assert (E : Nat.min size (S n * 64) = (n * 64 + bs)%nat) by (unfold bs; clear - Hs; lia). rewrite E.
    assert (E0 : Nat.min size (n * 64) = (n * 64)%nat) by (clear - Hs; lia). rewrite E0 in O1, P1.
    assert (OUT : forall p, (p < out + n * 64 \/ out + n * 64 + bs <= p)%nat -> nth p m2 0 = nth p m1 0).
    { intros p Hp. rewrite N2. destruct (Nat.leb_spec (out + n * 64) p), (Nat.ltb_spec p (out + n * 64 + bs)); cbn [andb]; try reflexivity.
      exfalso. clear - Hp H0 H1. lia. }
    assert (BS : (bs <= 64)%nat) by (unfold bs; clear; lia). clearbody bs. clear E E0 E1 E2.
    split; [congruence|]. split.
    + intros p Hp. rewrite OUT by (clear - Hp; lia). apply O1. clear - Hp. lia.
    + intros j Hj. destruct (Nat.lt_ge_cases j (n * 64)) as [C|C].
      * rewrite OUT by (clear - C; lia). rewrite (P1 j C). f_equal. unfold overwritten. change batch_size with 64%nat.
        destruct (Nat.leb_spec out (inp + j)) as [A|A], (Nat.ltb_spec (inp + j) (out + 64 * Nat.div j 64)) as [B|B]; cbn [andb]; try reflexivity.
        symmetry. apply OUT. left. clear - B C. lia.
      * rewrite N2. destruct (Nat.leb_spec (out + n * 64) (out + j)) as [A|A]; [|exfalso; clear - A C; lia].
        destruct (Nat.ltb_spec (out + j) (out + n * 64 + bs)) as [B|B]; [|exfalso; clear - B Hj; lia]. cbn [andb]. f_equal.
        replace (inp + n * 64 + (out + j - (out + n * 64)))%nat with (inp + j)%nat by (clear - C; lia).
        assert (D : (64 * Nat.div j 64 = n * 64)%nat) by (clear - C Hj BS; lia).
        unfold overwritten. change batch_size with 64%nat. rewrite D.
        destruct (Nat.leb_spec out (inp + j)) as [A'|A'], (Nat.ltb_spec (inp + j) (out + n * 64)) as [B'|B']; cbn [andb].
        -- symmetry. apply OUT. left. exact B'.
        -- apply O1. right. exact B'.
        -- apply O1. left. exact A'.
        -- apply O1. left. exact A'.
Qed.
End Hash.

(** * C75 *)

(** Exactly what a call leaves in memory, wherever the two spans are: every output block is the hash of
    its input block as it is when its batch is read. *)
Theorem C75_exact : forall aes key mem inp out size, (inp + size <= length mem)%nat -> (out + size <= length mem)%nat ->
  exists mem', evaluate_memory aes key mem inp size out size = Ok mem' /\ length mem' = length mem /\
    (forall p, (p < out \/ out + size <= p)%nat -> nth p mem' 0 = nth p mem 0) /\
    (forall j, (j < size)%nat ->
      nth (out + j) mem' 0
      = hash aes key (nth (inp + j) (if Nat.leb out (inp + j) && Nat.ltb (inp + j) (out + 64 * Nat.div j 64) then mem' else mem) 0)).
Proof.
  intros aes key mem inp out size Hi Ho. unfold evaluate_memory. rewrite Nat.eqb_refl. cbn [check bind].
  destruct (batches_spec aes key inp out size mem Hi Ho _ (Nat.le_refl _)) as (mem' & E & L & O & P). rewrite E.
  change batch_size with 64%nat in *. rewrite Nat.min_l in O, P by (clear; lia).
  exists mem'. split; [reflexivity|]. split; [exact L|]. split; [exact O|]. exact P.
Qed.
Print Assumptions C75_exact.

(** Overlapping spans are safe if the output does not start after the input, or in one batch. *)
Theorem C75_overlap_partial : forall aes key mem inp out size, (inp + size <= length mem)%nat -> (out + size <= length mem)%nat ->
  (out <= inp \/ inp + size <= out \/ size <= 64)%nat ->
  exists mem', evaluate_memory aes key mem inp size out size = Ok mem' /\ length mem' = length mem /\
    (forall p, (p < out \/ out + size <= p)%nat -> nth p mem' 0 = nth p mem 0) /\
    (forall j, (j < size)%nat -> nth (out + j) mem' 0 = hash aes key (nth (inp + j) mem 0)).
Proof.
  intros aes key mem inp out size Hi Ho Hc. destruct (C75_exact aes key mem inp out size Hi Ho) as (mem' & E & L & O & P).
  exists mem'. split; [exact E|]. split; [exact L|]. split; [exact O|]. intros j Hj. rewrite (P j Hj).
  destruct (Nat.leb_spec out (inp + j)) as [A|A], (Nat.ltb_spec (inp + j) (out + 64 * Nat.div j 64)) as [B|B]; cbn [andb]; try reflexivity.
  exfalso. clear - A B Hc Hj. lia.
Qed.
Print Assumptions C75_overlap_partial.

(** Every other overlap is not safe: for some cipher and memory some output block is not the hash of its
    input block. *)
Theorem C75_overlap_refuted : forall inp out size, (64 < size)%nat -> (inp < out < inp + size)%nat ->
  exists aes key mem mem' j, (inp + size <= length mem)%nat /\ (out + size <= length mem)%nat /\
    evaluate_memory aes key mem inp size out size = Ok mem' /\ (j < size)%nat /\
    nth (out + j) mem' 0 <> hash aes key (nth (inp + j) mem 0).
Proof.
  intros inp out size Hs Ho. set (aes := fun _ x : N => if x =? 0 then 1 else 0). set (mem := repeat 0 (out + size)).
  assert (L : length mem = (out + size)%nat) by apply repeat_length.
  assert (Z : forall p, nth p mem 0 = 0).
  { intros p. destruct (Nat.lt_ge_cases p (length mem)) as [C|C]; [|apply nth_overflow; exact C].
    apply repeat_spec with (n := (out + size)%nat). apply nth_In. exact C. }
  destruct (C75_exact aes 0 mem inp out size) as (mem' & E & _ & O & P); [rewrite L; clear - Ho; lia|rewrite L; clear; lia|].
  set (j := Nat.max (out - inp) 64). assert (Hj : (j < size)%nat) by (unfold j; clear - Hs Ho; lia).
  exists aes, 0, mem, mem', j. rewrite L. split; [clear - Ho; lia|]. split; [clear; lia|]. split; [exact E|]. split; [exact Hj|].
  rewrite (P j Hj). destruct (Nat.leb_spec out (inp + j)) as [A|A]; [|exfalso; unfold j in A; clear - A Ho; lia].
  destruct (Nat.ltb_spec (inp + j) (out + 64 * Nat.div j 64)) as [B|B].
  2: { exfalso. unfold j in B. destruct (Nat.max_spec (out - inp) 64) as [[C D]|[C D]]; rewrite D in B.
       - change (Nat.div 64 64) with 1%nat in B. clear - B Ho. lia.
       - pose proof (Nat.div_str_pos (out - inp) 64). clear - H B C. lia. }
  cbn [andb]. set (k := (inp + j - out)%nat). replace (inp + j)%nat with (out + k)%nat by (unfold k; clear - A; lia).
  assert (Hk : (k < size)%nat) by (unfold k; clear - Hj Ho A; lia). rewrite (P k Hk).
  assert (Hk' : (k < 64)%nat \/ k = 0%nat) by (unfold k, j; clear - Ho; lia).
  replace (Nat.div k 64) with 0%nat by (symmetry; apply Nat.div_small; clear - Hk'; lia).
  destruct (Nat.leb_spec out (inp + k)) as [A'|A'], (Nat.ltb_spec (inp + k) (out + 64 * 0)) as [B'|B']; cbn [andb]; try (exfalso; clear - A' B'; lia).
  all: rewrite !Z; vm_compute; discriminate.
Qed.
Print Assumptions C75_overlap_refuted.

(** In particular calls in place, the only overlapping calls in the library, compute the hash that the
    model of the tree walks uses. *)
Theorem C75_in_place : forall aes key mem inp size, (inp + size <= length mem)%nat ->
  evaluate_memory aes key mem inp size inp size
  = Ok (firstn inp mem ++ prg_evaluate aes key (firstn size (skipn inp mem)) ++ skipn (inp + size) mem).
Proof.
  intros aes key mem inp size Hi.
  destruct (C75_overlap_partial aes key mem inp inp size Hi Hi (or_introl (Nat.le_refl _))) as (mem' & E & L & O & P).
  rewrite E, prg_evaluate_hash. f_equal.
  set (f := firstn size (skipn inp mem)).
  assert (Lf : length f = size) by (unfold f; rewrite firstn_length, skipn_length; clear - Hi; lia).
  assert (L1 : length (firstn inp mem) = inp) by (rewrite firstn_length; clear - Hi; lia).
  assert (DM : mem = firstn inp mem ++ f ++ skipn (inp + size) mem).
  { unfold f. rewrite <- (firstn_skipn inp mem) at 1. f_equal. rewrite <- (firstn_skipn size (skipn inp mem)) at 1. f_equal.
    apply skipn_skipn'. }
  apply (nth_ext _ _ 0 0).
  - rewrite L. rewrite DM at 1. rewrite !app_length, map_length. reflexivity.
  - intros p _. destruct (Nat.lt_ge_cases p inp) as [C|C].
    + rewrite O by (left; exact C). rewrite app_nth1 by (rewrite L1; exact C).
      rewrite DM at 1. rewrite app_nth1 by (rewrite L1; exact C). reflexivity.
    + destruct (Nat.lt_ge_cases p (inp + size)) as [D|D].
      * replace p with (inp + (p - inp))%nat at 1 by (clear - C; lia). rewrite P by (clear - C D; lia).
        rewrite app_nth2, L1 by (rewrite L1; exact C). rewrite app_nth1 by (rewrite map_length, Lf; clear - C D; lia).
        rewrite (nth_indep (map (hash aes key) f) 0 (hash aes key 0)) by (rewrite map_length, Lf; clear - C D; lia). rewrite map_nth. f_equal.
        rewrite DM at 1. replace (inp + (p - inp))%nat with p by (clear - C; lia).
        rewrite app_nth2, L1 by (rewrite L1; exact C). apply app_nth1. rewrite Lf. clear - C D. lia.
      * rewrite O by (right; exact D). rewrite app_nth2, L1 by (rewrite L1; exact C). rewrite app_nth2, map_length, Lf by (rewrite map_length, Lf; clear - D; lia).
        rewrite DM at 1. rewrite app_nth2, L1 by (rewrite L1; exact C). rewrite app_nth2, Lf by (rewrite Lf; clear - D; lia). reflexivity.
Qed.
Print Assumptions C75_in_place.

(** Spans of different sizes are rejected and nothing is written. *)
Theorem C75_sizes : forall aes key mem inp n out m, n <> m -> evaluate_memory aes key mem inp n out m = Err INVALID_ARGUMENT.
Proof. intros aes key mem inp n out m H. unfold evaluate_memory. rewrite (proj2 (Nat.eqb_neq n m) H). reflexivity. Qed.
Print Assumptions C75_sizes.

(** Spans of more bytes than an int can hold are not rejected. *)
Theorem C75_large_refuted : exists mem size, 2 ^ 31 <= 16 * N.of_nat size /\ (size <= length mem)%nat /\
  forall aes key, is_ok (evaluate_memory aes key mem 0 size 0 size) = true.
Proof.
  exists (repeat 0 (N.to_nat (2 ^ 27))), (N.to_nat (2 ^ 27)). generalize (eq_refl (2 ^ 27)). generalize (2 ^ 27) at 1 3 4 5. intros n E.
  rewrite N2Nat.id, repeat_length. split; [subst n; discriminate|]. split; [apply Nat.le_refl|].
  intros aes key. rewrite C75_in_place; [reflexivity|]. rewrite repeat_length. apply Nat.le_refl.
Qed.
Print Assumptions C75_large_refuted.

(** Three blocks written one address before, one after and exactly where they are read, and a span that
    ends outside of the memory. *)
Definition xh_aes (k x : N) : N := N.lxor x (k + 3 * (x mod 5) + 1).
Example C75_nonvacuous :
  evaluate_memory xh_aes 7 [1; 2; 3; 4; 5] 1 3 0 3 = Ok [14; 17; 20; 4; 5] /\
  evaluate_memory xh_aes 7 [1; 2; 3; 4; 5] 1 3 2 3 = Ok [1; 2; 14; 17; 20] /\
  evaluate_memory xh_aes 7 [1; 2; 3; 4; 5] 1 3 1 3 = Ok [1; 14; 17; 20; 5] /\
  prg_evaluate xh_aes 7 [2; 3; 4] = [14; 17; 20] /\
  evaluate_memory xh_aes 7 [1; 2; 3; 4; 5] 1 3 3 3 = UB /\
  (let mem := repeat 5 100 in (0 + 70 <= length mem)%nat /\ (20 + 70 <= length mem)%nat /\ (64 < 70)%nat /\ (0 < 20 < 0 + 70)%nat).
Proof. do 5 (split; [vm_compute; reflexivity|]). cbv zeta. rewrite repeat_length. lia. Qed.
