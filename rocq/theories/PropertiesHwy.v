(** Property C20: the vectorised and the scalar tree walk agree. *)
From Coq Require Import List NArith ZArith Lia Bool ZifyBool ZifyNat ZifyN.
From Verif Require Import Base ListUtil ValueTypesModel DpfModel DpfTree HwyModel HwyProofs HwyLoop.
Import ListNotations.
Ltac Zify.zify_post_hook ::= Z.div_mod_to_equations.
Open Scope N_scope.

(** ** C20: EvaluateSeeds gives the same result on every target

    For every AES round function and key schedule, every vector size [lanes8] in bytes
    (including sizes for which the code falls back to the scalar walk), aligned or
    unaligned arrays, every content of the freshly allocated buffer, calls in place
    ([ins = None]) or with separate inputs, and all seeds, control bits, paths and
    corrections: EvaluateSeeds returns what the scalar EvaluateSeedsNoHwy computes with
    AES made of the same rounds; in particular no load or store is out of bounds or
    misaligned.  [cws] has the size the caller announces.  With no levels nothing is
    written ([C20_no_levels]). *)
Theorem C20_simd_is_scalar :
  forall aes_round aes_last round_key lanes8 is_aligned buffer num_levels ncw ins paths rs cws o
         seeds bits,
  rd ins o = (seeds, bits) ->
  length bits = length seeds -> length paths = length seeds ->
  length (fst o) = length seeds -> length (snd o) = length seeds ->
  Z.of_nat (length cws) = ncw ->
  Forall (fun p => p < 2 ^ 128) paths -> Forall (fun c => fst c < 2 ^ 128) cws ->
  length buffer = (2 * (lanes8 / 16))%nat ->
  ins = None \/ (0 < num_levels)%nat ->
  evaluate_seeds_dispatch aes_round aes_last round_key lanes8 is_aligned buffer num_levels ncw
    ins paths rs cws o
  = (r <- evaluate_seeds_internal (aes_encrypt aes_round aes_last round_key) num_levels ncw
            (combine seeds bits) paths rs cws ;;
     Ok (split r)).
Proof.
  intros ar al rk lanes8 is_aligned buffer num_levels ncw ins paths rs cws o seeds bits
    Hrd Hb Hp Ho1 Ho2 Hc HpF HcF Hbuf Hlev.
  change (2 ^ 128) with P128 in *.
  assert (Hsplit : forall r : list node, split r = (map fst r, map snd r)).
  { induction r as [|[a b] r IH]; [reflexivity|]. cbn [split map fst snd]. rewrite IH. reflexivity. }
  unfold evaluate_seeds_dispatch, evaluate_seeds_internal, evaluate_seeds_hwy. rewrite Hrd. cbn [fst].
  cbv zeta. replace (@length node (combine seeds bits)) with (length seeds)
    by (unfold node; rewrite combine_length; lia).
  set (ck := negb _). destruct ck eqn:Eck; cbn [check bind]; [|reflexivity].
  assert (Hck : (ncw = Z.of_nat num_levels \/ ncw = Z.of_nat num_levels * Z.of_nat (length seeds))%Z).
  { unfold ck in Eck. lia. }
  clear ck Eck.
  destruct (Nat.eqb_spec (length seeds) 0) as [E0|E0].
  { cbn [orb]. destruct seeds; [|discriminate]. destruct bits; [|discriminate].
    destruct paths; [|discriminate]. cbn. destruct o as [[|? ?] [|? ?]]; try discriminate. reflexivity. }
  cbn [orb]. destruct (Nat.eqb_spec num_levels 0) as [E1|E1].
  { destruct Hlev as [->|Hlev]; [|lia]. cbn [rd] in Hrd. subst o num_levels. cbn [fst snd] in *.
    assert (Hid : walk_batches (aes_encrypt ar al rk) (length seeds) 0 ncw rs cws 0
      (@chunks (N * node) batch_size (@combine N node paths (combine seeds bits))) = Ok (combine seeds bits)).
    { rewrite walk_batches_spec.
      - rewrite concat_chunks by (unfold batch_size; lia). unfold walkf. cbn [seq fold_left].
        rewrite (imap_const _ _ (fun pn : N * node => snd pn)). f_equal.
        assert (HL : length paths = length (combine seeds bits)) by (rewrite combine_length; lia).
        clear - HL. revert HL. generalize (combine seeds bits) as l.
        induction paths as [|p ps IH]; intros [|x l] HL; try discriminate; auto.
        cbn [combine map snd]. rewrite IH by (cbn in HL; lia). reflexivity.
      - intros. lia.
      - rewrite concat_chunks by (unfold batch_size; lia). apply Forall_forall. intros [p n] Hin.
        apply in_combine_l in Hin. rewrite Forall_forall in HpF. auto.
      - rewrite concat_chunks by (unfold batch_size; lia). rewrite !combine_length. lia. }
    rewrite Hid. cbn [bind]. rewrite combine_split by auto. reflexivity. }
  assert (Hcw : (ncw = Z.of_nat num_levels /\ Z.to_nat (Z.quot ncw (Z.of_nat num_levels)) = 1%nat
                 /\ length cws = num_levels)
    \/ (ncw = Z.of_nat (num_levels * length seeds)
        /\ Z.to_nat (Z.quot ncw (Z.of_nat num_levels)) = length seeds /\ (1 < length seeds)%nat
        /\ length cws = (num_levels * length seeds)%nat)).
  { destruct Hck as [->|E].
    - left. rewrite Z.quot_same by lia. repeat split; auto. lia.
    - destruct (Nat.eq_dec (length seeds) 1) as [E2|E2].
      + left. assert (ncw = Z.of_nat num_levels) by (rewrite E, E2; lia). rewrite H.
        rewrite Z.quot_same by lia. repeat split; auto. lia.
      + right. rewrite Nat2Z.inj_mul. repeat split; try lia.
        rewrite E, Z.mul_comm, Z.quot_mul by lia. lia. }
  unfold node in *. rewrite walk_batches_spec; rewrite ?concat_chunks by (unfold batch_size; lia).
  - cbn [bind]. rewrite Hsplit.
    destruct (negb is_aligned || Nat.ltb lanes8 16 || negb (Nat.eqb (lanes8 mod 16) 0)) eqn:Ew.
    + reflexivity.
    + assert (Hw : (0 < lanes8 / 16)%nat).
      { apply orb_false_iff in Ew. destruct Ew as [Ew E16]. apply orb_false_iff in Ew.
        destruct Ew as [_ Ew]. apply Nat.ltb_ge in Ew. lia. }
      apply (hwy_vectors_ok (lanes8 / 16) Hw ar al rk (length seeds) num_levels ncw _ rs cws seeds bits paths);
        auto; lia.
  - intros level idx Hl Hi. unfold ci. unfold corr in *.
    destruct (Z.ltb_spec (Z.of_nat num_levels) ncw); [nia|].
    destruct Hcw as [(_ & _ & ->)|(-> & _ & _ & ->)]; nia.
  - apply Forall_forall. intros [p n] Hin. apply in_combine_l in Hin.
    rewrite Forall_forall in HpF. auto.
  - rewrite !combine_length. lia.
Qed.
Print Assumptions C20_simd_is_scalar.

(** Without levels nothing is written. *)
Theorem C20_no_levels :
  forall aes_round aes_last round_key lanes8 is_aligned buffer ncw ins paths rs cws o o',
  evaluate_seeds_dispatch aes_round aes_last round_key lanes8 is_aligned buffer 0 ncw
    ins paths rs cws o = Ok o' -> o' = o.
Proof.
  intros ar al rk lanes8 is_aligned buffer ncw ins paths rs cws o o' H.
  unfold evaluate_seeds_dispatch, evaluate_seeds_hwy in H. bind_inv H.
  destruct (rd ins o) as [seeds bits]. rewrite orb_true_r in H. congruence.
Qed.
Print Assumptions C20_no_levels.

(** 11 seeds, 3 levels and a correction per seed and level, in place, with vectors of 32
    bytes: one pass over four vectors, one single vector and one partial vector; with
    vectors of 64 bytes the corrections of levels 1 and 2 are not aligned. *)
Definition c20_round (s k : N) : N := w128 (s * 0x9e3779b97f4a7c15f39cc0605cedc835 + N.lxor k (s / 65536) + 7).
Definition c20_last (s k : N) : N := N.lxor (w128 (s * 5 + s / 7)) k.
Definition c20_key (key : N) (r : nat) : N := w128 (key * (N.of_nat r + 3) + 12345).
Definition c20_seeds : list N := map (fun i => w128 (N.of_nat i * 0x123456789abcdef0fedcba9876543211)) (seq 1 11).
Definition c20_bits : list bool := map Nat.odd (seq 0 11).
Definition c20_paths : list N := map (fun i => N.of_nat i * 5) (seq 2 11).
Definition c20_cws : list corr :=
  map (fun i => (w128 (N.of_nat i * 0xfedcba98765432100123456789abcdef + 1), (Nat.odd i, Nat.even (i / 3)))) (seq 0 33).
Definition c20_run (lanes8 : nat) (is_aligned : bool) :=
  evaluate_seeds_dispatch c20_round c20_last c20_key lanes8 is_aligned
    (repeat 0xdeadbeef (2 * (lanes8 / 16))) 3 33 None c20_paths 2 c20_cws (c20_seeds, c20_bits).
Definition c20_out := Eval vm_compute in c20_run 16 true.
Example C20_nonvacuous :
  (forall lanes8, length (repeat 0xdeadbeef (2 * (lanes8 / 16))) = (2 * (lanes8 / 16))%nat)
  /\ length c20_bits = length c20_seeds /\ length c20_paths = length c20_seeds
  /\ Z.of_nat (length c20_cws) = 33%Z
  /\ Forall (fun p => p < 2 ^ 128) c20_paths /\ Forall (fun c => fst c < 2 ^ 128) c20_cws
  /\ map (c20_run 32) [true; false] = [c20_out; c20_out]
  /\ map (fun l => c20_run l true) [8; 64]%nat = repeat c20_out 2
  /\ is_ok c20_out = true.
Proof.
  split; [intros; apply repeat_length|].
  split; [reflexivity|]. split; [reflexivity|]. split; [reflexivity|].
  split; [apply Forall_forall; intros x Hx; unfold c20_paths in Hx; apply in_map_iff in Hx;
          destruct Hx as (i & <- & Hi); apply in_seq in Hi; change (2 ^ 128) with P128; lia|].
  split; [apply Forall_forall; intros x Hx; unfold c20_cws in Hx; apply in_map_iff in Hx;
          destruct Hx as (i & <- & Hi); cbn [fst]; apply w128_lt|].
  split; [vm_compute; reflexivity|]. split; vm_compute; reflexivity.
Qed.
