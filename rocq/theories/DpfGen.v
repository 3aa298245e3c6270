(** Key generation: the two parties' states agree off the path and carry different
    control bits on it; the corrections turn the two shares into shares of beta. *)
From Coq Require Import List NArith ZArith Lia Bool ZifyBool ZifyNat ZifyN.
From Verif Require Import Base ListUtil ValueTypesModel ValueTypesSpec ValueTypesProofs
  ConvProofs BitsProofs TypeProofs DpfModel DpfTree DpfWf.
Import ListNotations.
Ltac Zify.zify_post_hook ::= Z.div_mod_to_equations.
Open Scope N_scope.

(** * Bits *)
Lemma lowest_bit_bit0 : forall x, lowest_bit x = N.testbit x 0.
Proof. intros. unfold lowest_bit. symmetry. apply N.bit0_odd. Qed.
Lemma lowest_bit_lxor : forall a b, lowest_bit (N.lxor a b) = xorb (lowest_bit a) (lowest_bit b).
Proof. intros. rewrite !lowest_bit_bit0. apply N.lxor_spec. Qed.
Lemma lowest_bit_clear : forall a, lowest_bit (clear_lowest a) = false.
Proof. intros. rewrite lowest_bit_bit0. unfold clear_lowest. rewrite N.ldiff_spec.
  change (N.testbit 1 0) with true. apply andb_false_r. Qed.
Lemma clear_lxor : forall a b, clear_lowest (N.lxor a b) = N.lxor (clear_lowest a) (clear_lowest b).
Proof.
  intros. unfold clear_lowest. apply N.bits_inj. intros i.
  rewrite N.ldiff_spec, !N.lxor_spec, !N.ldiff_spec.
  destruct (N.testbit 1 i), (N.testbit a i), (N.testbit b i); reflexivity.
Qed.
Lemma clear_clear : forall a, clear_lowest (clear_lowest a) = clear_lowest a.
Proof.
  intros. unfold clear_lowest. apply N.bits_inj. intros i. rewrite !N.ldiff_spec.
  destruct (N.testbit 1 i), (N.testbit a i); reflexivity.
Qed.
Lemma lxor_cancel_l : forall a b, N.lxor a (N.lxor a b) = b.
Proof. intros. rewrite <- N.lxor_assoc, N.lxor_nilpotent, N.lxor_0_l. reflexivity. Qed.
Lemma lxor_cancel_r : forall a b, N.lxor a (N.lxor b a) = b.
Proof. intros. rewrite (N.lxor_comm b a). apply lxor_cancel_l. Qed.

Lemma neq_negb : forall a b : bool, a <> b -> a = negb b.
Proof. intros [] [] H; try reflexivity; exfalso; apply H; reflexivity. Qed.

Section Gen.
Variable aes : N -> N -> N.
Variable d : dpf.

Definition g_node0 (g : gstate) : node := (g_seed0 g, g_bit0 g).
Definition g_node1 (g : gstate) : node := (g_seed1 g, g_bit1 g).

(** The value corrections put into the correction word of a tree level. *)
Definition gen_values (tree_level : nat) (alpha : N) (beta : list pvalue) (g : gstate)
  : res (list pvalue) :=
  match tree_to_hierarchy d (tree_level - 1) with
  | Some h =>
      b <- at_or_ub beta h ;;
      compute_value_correction aes d h (g_seed0 g) (g_seed1 g)
        (shr128 alpha (ld_last d - ld d h)) b (g_bit1 g)
  | None => Ok []
  end.

Lemma generate_next_inv : forall i alpha beta g g' cw, alpha < P128 ->
  g_bit0 g <> g_bit1 g ->
  generate_next aes d i alpha beta g = Ok (g', cw) ->
  let b := N.testbit alpha (N.of_nat (ld_last d - i)) in
  g_bit0 g' <> g_bit1 g' /\
  step aes (corr_of cw) b (g_node0 g) = g_node0 g' /\
  step aes (corr_of cw) b (g_node1 g) = g_node1 g' /\
  step aes (corr_of cw) (negb b) (g_node0 g) = step aes (corr_of cw) (negb b) (g_node1 g) /\
  gen_values i alpha beta g = Ok (cw_values cw).
Proof.
  intros i alpha beta [s0 s1 t0 t1] g' cw Ha Ht H. cbn [g_bit0 g_bit1] in Ht.
  unfold generate_next in H. fold (gen_values i alpha beta {| g_seed0 := s0; g_seed1 := s1; g_bit0 := t0; g_bit1 := t1 |}) in H.
  bind_inv H. rename a into values. pose proof Hb as HV. rewrite !prg_evaluate_hash in H.
  cbn [g_seed0 g_seed1 g_bit0 g_bit1 map at_or_ub nth_error bind] in H.
  assert (HB : Nat.ltb (ld_last d - i) 128 && N.testbit alpha (N.of_nat (ld_last d - i))
             = N.testbit alpha (N.of_nat (ld_last d - i))).
  { destruct (Nat.ltb_spec (ld_last d - i) 128); auto.
    cbn [andb]. symmetry. apply testbit_high; auto. lia. }
  rewrite HB in H. clear HB. cbv zeta. set (b := N.testbit alpha _) in *. clearbody b.
  inv H. unfold g_node0, g_node1, step, corr_of. cbn [fst snd g_seed0 g_seed1 g_bit0 g_bit1 cw_seed cw_left cw_right cw_values].
  set (hl0 := hash aes kPrgKeyLeft s0). set (hl1 := hash aes kPrgKeyLeft s1).
  set (hr0 := hash aes kPrgKeyRight s0). set (hr1 := hash aes kPrgKeyRight s1).
  assert (t1 = negb t0) by (destruct t0, t1; try reflexivity; exfalso; apply Ht; reflexivity).
  clear Hb. subst t1.
  split; [|split; [|split; [|split]]]; [| | | |exact HV].
  - destruct (lowest_bit hl0), (lowest_bit hl1), (lowest_bit hr0), (lowest_bit hr1), b, t0; discriminate.
  - destruct b, t0; cbn [negb andb fst snd]; fold hl0 hl1 hr0 hr1;
      rewrite ?lowest_bit_lxor, ?clear_lxor, ?clear_clear, ?lowest_bit_clear; cbn [xorb]; rewrite ?xorb_false_r; reflexivity.
  - destruct b, t0; cbn [negb andb fst snd]; fold hl0 hl1 hr0 hr1;
      rewrite ?lowest_bit_lxor, ?clear_lxor, ?clear_clear, ?lowest_bit_clear; cbn [xorb]; rewrite ?xorb_false_r; reflexivity.
  - destruct b, t0; cbn [negb andb fst snd]; fold hl0 hl1 hr0 hr1;
      rewrite ?lowest_bit_lxor, ?clear_lxor, ?clear_clear, ?lowest_bit_clear; cbn [xorb]; rewrite ?xorb_false_r;
      rewrite ?lxor_cancel_l, ?lxor_cancel_r; f_equal;
      destruct (lowest_bit hl0), (lowest_bit hl1), (lowest_bit hr0), (lowest_bit hr1); reflexivity.
Qed.

(** [path] agrees with the bits of alpha that steer levels i, ..., i+n-1. *)
Definition on_path (alpha : N) (i n : nat) (path : N) : Prop :=
  forall j, (j < n)%nat ->
    N.testbit path (N.of_nat j) = N.testbit alpha (N.of_nat (ld_last d + 1 - i - n + j)).

Lemma generate_loop_walk : forall n i alpha beta g g' cws, alpha < P128 ->
  g_bit0 g <> g_bit1 g -> (0 < i)%nat -> (i + n <= S (ld_last d))%nat ->
  generate_loop aes d n i alpha beta g = Ok (g', cws) ->
  length cws = n /\ g_bit0 g' <> g_bit1 g' /\
  forall path,
    (on_path alpha i n path -> walk aes (map corr_of cws) path (g_node0 g) = g_node0 g' /\
                               walk aes (map corr_of cws) path (g_node1 g) = g_node1 g') /\
    (~ on_path alpha i n path ->
       walk aes (map corr_of cws) path (g_node0 g) = walk aes (map corr_of cws) path (g_node1 g)).
Proof.
  induction n as [|n IH]; intros i alpha beta g g' cws Ha Ht Hi Hn H; cbn [generate_loop] in H.
  - inv H. split; auto. split; auto. intros path. cbn. split; auto.
    intros HX. exfalso. apply HX. intros j Hj. lia.
  - bind_inv H. destruct a as [g1 cw]. bind_inv H. destruct a as [g2 cws']. inv H.
    pose proof (generate_next_inv _ _ _ _ _ _ Ha Ht Hb) as (H1 & H2 & H3 & H4 & _).
    apply IH in Hb0; auto; try lia. destruct Hb0 as (HL & HT & HW).
    split; [cbn; lia|]. split; auto. intros path. cbn [map walk]. rewrite map_length, HL.
    set (b := N.testbit alpha (N.of_nat (ld_last d - i))) in *.
    assert (Hsplit : on_path alpha i (S n) path <->
       N.testbit path (N.of_nat n) = b /\ on_path alpha (S i) n path).
    { unfold on_path, b. split.
      - intros HO. split.
        + rewrite (HO n) by lia. do 2 f_equal. lia.
        + intros j Hj. rewrite (HO j) by lia. do 2 f_equal. lia.
      - intros [HO1 HO2] j Hj. destruct (Nat.eq_dec j n) as [->|Hne].
        + rewrite HO1. do 2 f_equal. lia.
        + rewrite HO2 by lia. do 2 f_equal. lia. }
    rewrite Hsplit. destruct (HW path) as [HW1 HW2]. split.
    + intros [HO1 HO2]. rewrite HO1, H2, H3. auto.
    + intros HO. destruct (Bool.bool_dec (N.testbit path (N.of_nat n)) b) as [E|E].
      * rewrite E, H2, H3. apply HW2. intros HX. apply HO. auto.
      * assert (N.testbit path (N.of_nat n) = negb b) as -> by (apply neq_negb; exact E).
        rewrite H4. reflexivity.
Qed.

Lemma generate_loop_split : forall a b i alpha beta g g' cws,
  generate_loop aes d (a + b) i alpha beta g = Ok (g', cws) ->
  exists g1 c1 c2, generate_loop aes d a i alpha beta g = Ok (g1, c1) /\
    generate_loop aes d b (i + a) alpha beta g1 = Ok (g', c2) /\ cws = c1 ++ c2.
Proof.
  induction a as [|a IH]; intros b i alpha beta g g' cws H; cbn [Nat.add generate_loop] in *.
  - exists g, [], cws. rewrite Nat.add_0_r. auto.
  - bind_inv H. destruct a0 as [g1 cw]. bind_inv H. destruct a0 as [g2 cws']. inv H.
    apply IH in Hb0. destruct Hb0 as (g3 & c1 & c2 & H1 & H2 & ->).
    exists g3, (cw :: c1), c2. rewrite Hb. cbn [bind]. rewrite H1. cbn [bind].
    rewrite Nat.add_succ_r. auto.
Qed.

Lemma generate_loop_length : forall n i alpha beta g g' cws,
  generate_loop aes d n i alpha beta g = Ok (g', cws) -> length cws = n.
Proof.
  induction n as [|n IH]; intros i alpha beta g g' cws H; cbn [generate_loop] in H.
  - inv H. auto.
  - bind_inv H. destruct a as [g1 cw]. bind_inv H. destruct a as [g2 cws']. inv H.
    cbn. f_equal. eauto.
Qed.

Lemma tree_to_hierarchy_from_spec : forall l i h t,
  nth_error l h = Some t -> (forall h', (h < h')%nat -> (h' < length l)%nat -> nth h' l 0%nat <> t) ->
  tree_to_hierarchy_from l i t = Some (i + h)%nat.
Proof.
  induction l as [|x l IH]; intros i h t Hh Hu; [destruct h; discriminate|].
  cbn [tree_to_hierarchy_from]. destruct h as [|h].
  - cbn in Hh. inv Hh. 
    assert (HN : forall j, tree_to_hierarchy_from l j t = None).
    { assert (HX : Forall (fun y => y <> t) l).
      { apply Forall_forall. intros y Hy. apply (In_nth _ _ 0%nat) in Hy. destruct Hy as (k & Hk & <-).
        apply (Hu (S k)); cbn; lia. }
      clear - HX. induction l as [|y l IH]; intros j; cbn; auto. fcons HX Hy HX'.
      rewrite IH by auto. destruct (Nat.eqb_spec y t); congruence. }
    rewrite HN, Nat.eqb_refl, Nat.add_0_r. reflexivity.
  - cbn in Hh. rewrite (IH (S i) h t); auto.
    + f_equal. lia.
    + intros h' H1 H2. apply (Hu (S h')); cbn; lia.
Qed.

Hypothesis W : wf d.

Lemma h2t_nth_error : forall h, (h < nlevels d)%nat -> nth_error (d_h2t d) h = Some (h2t d h).
Proof. intros h H. unfold h2t. apply nth_error_nth'. rewrite wf_len; auto. Qed.

Lemma tree_to_hierarchy_h2t : forall h, (h < nlevels d)%nat -> tree_to_hierarchy d (h2t d h) = Some h.
Proof.
  intros h H. unfold tree_to_hierarchy. rewrite (tree_to_hierarchy_from_spec _ 0 h); auto.
  - apply h2t_nth_error. auto.
  - intros h' H1 H2. rewrite wf_len in H2 by auto. pose proof (wf_h2t_mono _ W h h' H1 H2).
    unfold h2t in *. lia.
Qed.

Lemma tree_to_hierarchy_some : forall t h, tree_to_hierarchy d t = Some h ->
  (h < nlevels d)%nat /\ h2t d h = t.
Proof.
  intros t h. unfold tree_to_hierarchy. rewrite <- (wf_len _ W).
  assert (HG : forall l i h, tree_to_hierarchy_from l i t = Some h ->
    (i <= h < i + length l)%nat /\ nth (h - i) l 0%nat = t).
  { induction l as [|x l IH]; intros i k Hk; cbn in Hk; [discriminate|].
    destruct (tree_to_hierarchy_from l (S i) t) eqn:E.
    - inv Hk. apply IH in E. destruct E as [E1 E2]. cbn [length]. split; [lia|].
      replace (k - i)%nat with (S (k - S i)) by lia. auto.
    - destruct (Nat.eqb_spec x t); inv Hk. cbn [length]. split; [lia|]. rewrite Nat.sub_diag. auto. }
  intros H. apply HG in H. destruct H as [H1 H2]. rewrite Nat.sub_0_r in H2. unfold h2t. split; auto; lia.
Qed.

Lemma h2t_le_last : forall h, (h < nlevels d)%nat -> (h2t d h <= h2t d (nlevels d - 1))%nat.
Proof.
  intros h H. destruct (Nat.eq_dec h (nlevels d - 1)) as [->|]; auto.
  pose proof (wf_h2t_mono _ W h (nlevels d - 1)). lia.
Qed.
Lemma ld_le_last : forall h, (h < nlevels d)%nat -> (ld d h <= ld_last d)%nat.
Proof.
  intros h H. unfold ld_last. destruct (Nat.eq_dec h (nlevels d - 1)) as [->|]; auto.
  pose proof (wf_ld_mono _ W h (nlevels d - 1)). lia.
Qed.
Lemma ld_le_128 : forall h, (ld d h <= 128)%nat.
Proof.
  intros h. unfold ld. destruct (nth_error (d_params d) h) eqn:E; [|lia].
  apply (wf_ld_z _ W) in E. lia.
Qed.
(** At a non-last hierarchy level, tree levels still follow within the domain:
    ld_last - h2t h >= 1. *)
Lemma h2t_le_ld_last : forall h, (h < nlevels d)%nat -> (h2t d h <= ld_last d)%nat.
Proof. intros h H. pose proof (wf_h2t_ld _ W h H). pose proof (ld_le_last h H). lia. Qed.

(** The value corrections of level [h] in a key. *)
Definition key_values (key : dkey) (h : nat) : list pvalue :=
  if Nat.ltb h (nlevels d - 1)
  then match nth_error (k_cws key) (h2t d h) with Some cw => cw_values cw | None => [] end
  else k_last key.

Lemma value_correction_values : forall T key h, (h < nlevels d)%nat ->
  length (k_cws key) = (d_levels d - 1)%nat ->
  value_correction d T key h = values_to_array T (key_values key h).
Proof.
  intros T key h Hh HL. unfold value_correction, key_values.
  destruct (Nat.ltb_spec h (nlevels d - 1)) as [Hlt|Hge]; auto.
  unfold at_or_ub. rewrite (wf_levels _ W) in HL.
  pose proof (wf_h2t_mono _ W h (nlevels d - 1) Hlt ltac:(lia)).
  destruct (nth_error (k_cws key) (h2t d h)) eqn:E; auto.
  apply nth_error_None in E. lia.
Qed.

(** What a successful key generation produces, level by level. *)
Lemma generate_keys_level : forall alpha beta seed0 seed1 k0 k1, alpha < P128 ->
  generate_keys aes d alpha beta seed0 seed1 = Ok (k0, k1) ->
  k_seed k0 = Some seed0 /\ k_seed k1 = Some seed1 /\ k_party k0 = 0%Z /\ k_party k1 = 1%Z /\
  k_cws k0 = k_cws k1 /\ k_last k0 = k_last k1 /\
  length (k_cws k0) = (d_levels d - 1)%nat /\ length beta = nlevels d /\
  validate_betas (d_params d) beta = Ok tt /\
  alpha < 2 ^ N.of_nat (ld_last d) /\
  forall h, (h < nlevels d)%nat -> exists g b, nth_error beta h = Some b /\
    g_bit0 g <> g_bit1 g /\
    compute_value_correction aes d h (g_seed0 g) (g_seed1 g)
      (N.shiftr alpha (N.of_nat (ld_last d - ld d h))) b (g_bit1 g) = Ok (key_values k0 h) /\
    forall path, path < 2 ^ N.of_nat (h2t d h) ->
      let cs := map corr_of (firstn (h2t d h) (k_cws k0)) in
      if path =? N.shiftr alpha (N.of_nat (ld_last d - h2t d h))
      then walk aes cs path (seed0, false) = g_node0 g /\ walk aes cs path (seed1, true) = g_node1 g
      else walk aes cs path (seed0, false) = walk aes cs path (seed1, true).
Proof.
  intros alpha beta seed0 seed1 k0 k1 Ha H. unfold generate_keys in H.
  bind_inv H. apply check_ok, Nat.eqb_eq in Hb. clear a.
  bind_inv H. destruct a. bind_inv H. apply check_ok in Hb1. clear a.
  bind_inv H. destruct a as [g cws]. bind_inv H. rename a into bl. bind_inv H. rename a into last. inv H.
  cbn [k_seed k_cws k_party k_last].
  set (ginit := {| g_seed0 := seed0; g_seed1 := seed1; g_bit0 := false; g_bit1 := true |}) in *.
  pose proof (generate_loop_length _ _ _ _ _ _ _ Hb2) as HL.
  pose proof (wf_pos _ W) as Hpos. pose proof (wf_levels _ W) as Hlev.
  assert (Halpha : alpha < 2 ^ N.of_nat (ld_last d)).
  { apply negb_true_iff, andb_false_iff in Hb1. destruct Hb1 as [E|E].
    - apply Nat.ltb_ge in E. pose proof (ld_le_128 (nlevels d - 1)). fold (ld_last d) in H.
      replace (ld_last d) with 128%nat by lia. exact Ha.
    - apply N.leb_gt in E. auto. }
  do 7 (split; [solve [auto]|]). do 3 (split; [assumption|]). intros h Hh.
  pose proof (h2t_le_last h Hh) as Hle.
  replace (d_levels d - 1)%nat with (h2t d h + (h2t d (nlevels d - 1) - h2t d h))%nat in Hb2 by lia.
  apply generate_loop_split in Hb2. destruct Hb2 as (g1 & c1 & c2 & HA & HB & ->).
  pose proof (h2t_le_ld_last h Hh) as Hld.
  pose proof HA as HA'. apply generate_loop_walk in HA'; auto; try lia; [|cbn; discriminate].
  destruct HA' as (HLc & Hbits & HW).
  assert (Hfirst : firstn (h2t d h) (c1 ++ c2) = c1) by (apply firstn_app_exact; auto).
  rewrite Hfirst. exists g1.
  assert (Hpath : forall path, path < 2 ^ N.of_nat (h2t d h) ->
    if path =? N.shiftr alpha (N.of_nat (ld_last d - h2t d h))
    then walk aes (map corr_of c1) path (seed0, false) = g_node0 g1 /\
         walk aes (map corr_of c1) path (seed1, true) = g_node1 g1
    else walk aes (map corr_of c1) path (seed0, false) = walk aes (map corr_of c1) path (seed1, true)).
  { intros path Hp. destruct (HW path) as [H1 H2].
    destruct (N.eqb_spec path (N.shiftr alpha (N.of_nat (ld_last d - h2t d h)))) as [E|E].
    - apply H1. intros j Hj. subst path. rewrite N.shiftr_spec'. f_equal. lia.
    - apply H2. intros HO. apply E. apply N.bits_inj. intros i.
      rewrite N.shiftr_spec'. destruct (N.lt_ge_cases i (N.of_nat (h2t d h))) as [Hi|Hi].
      + specialize (HO (N.to_nat i) ltac:(lia)). rewrite N2Nat.id in HO. rewrite HO. f_equal. lia.
      + rewrite (testbit_lt_pow path (N.of_nat (h2t d h))) by auto.
        rewrite (testbit_lt_pow alpha (N.of_nat (ld_last d))) by (auto; lia). reflexivity. }
  destruct (Nat.ltb_spec h (nlevels d - 1)) as [Hlt|Hge].
  - pose proof (wf_h2t_mono _ W h (nlevels d - 1) Hlt ltac:(lia)) as Hm.
    destruct (h2t d (nlevels d - 1) - h2t d h)%nat as [|n] eqn:En; [lia|].
    cbn [generate_loop] in HB. bind_inv HB. destruct a as [g2 cw]. bind_inv HB. destruct a as [g3 cws'].
    inv HB. apply generate_next_inv in Hb2; auto. destruct Hb2 as (_ & _ & _ & _ & HV).
    unfold gen_values in HV. replace (1 + h2t d h - 1)%nat with (h2t d h) in HV by lia.
    rewrite tree_to_hierarchy_h2t in HV by auto. bind_inv HV. apply at_or_ub_ok in Hb2.
    exists a. split; auto. split; auto. split; auto.
    unfold key_values. cbn [k_cws k_last]. destruct (Nat.ltb_spec h (nlevels d - 1)); [|lia].
    rewrite nth_error_app2 by lia. rewrite HLc, Nat.sub_diag. cbn [nth_error].
    rewrite <- HV. f_equal. unfold shr128.
    destruct (Nat.ltb_spec (ld_last d - ld d h) 128) as [E|E]; auto.
    apply N.bits_inj. intros i. rewrite N.shiftr_spec', N.bits_0. 
    apply testbit_high; auto. lia.
  - assert (h = (nlevels d - 1)%nat) by lia. subst h. rewrite Nat.sub_diag in HB. cbn in HB. inv HB.
    apply at_or_ub_ok in Hb3. exists bl. split; auto. split; auto. split; auto.
    unfold key_values. cbn [k_cws k_last]. rewrite Nat.ltb_irrefl.
    replace (ld_last d - ld d (nlevels d - 1))%nat with 0%nat by (unfold ld_last; lia).
    change (N.of_nat 0) with 0. rewrite N.shiftr_0_r. auto.
Qed.

(** * Value correction *)

(** The elements a node's seed expands to at level [h]. *)
Definition node_bytes (h : nat) (seed : N) : bytes :=
  blocks_to_bytes (map (fun j => hash aes kPrgKeyValue (w128 (seed + N.of_nat j))) (seq 0 (blocks d h))).

Lemma blocks_to_bytes_length : forall l, length (blocks_to_bytes l) = (16 * length l)%nat.
Proof.
  clear.
  induction l as [|x l IH]; auto. unfold blocks_to_bytes in *. cbn [map concat].
  rewrite app_length, IH, le_encode_length. cbn [length]. lia.
Qed.
Lemma node_bytes_length : forall h s, length (node_bytes h s) = (16 * blocks d h)%nat.
Proof. intros. unfold node_bytes. rewrite blocks_to_bytes_length, map_length, seq_length. auto. Qed.

Lemma block_bytes_node : forall h seeds i s, nth_error seeds i = Some s ->
  block_bytes (blocks d h) (hash_expanded_seeds aes (blocks d h) seeds) i = node_bytes h s.
Proof.
  intros h seeds i s Hi. unfold block_bytes, hash_expanded_seeds, node_bytes. f_equal.
  rewrite prg_evaluate_hash.
  assert (HG : forall seeds i, nth_error seeds i = Some s ->
     firstn (blocks d h) (skipn (i * blocks d h) (concat (map (fun s => map (fun j => w128 (s + N.of_nat j)) (seq 0 (blocks d h))) seeds)))
     = map (fun j => w128 (s + N.of_nat j)) (seq 0 (blocks d h))).
  { clear. induction seeds as [|x seeds IH]; intros i Hi; [destruct i; discriminate|].
    cbn [map concat]. set (hd := map (fun j => w128 (x + N.of_nat j)) (seq 0 (blocks d h))).
    assert (HL : length hd = blocks d h) by (unfold hd; rewrite map_length, seq_length; auto).
    destruct i as [|i]; cbn in Hi.
    - inv Hi. cbn [Nat.mul skipn]. fold hd. apply firstn_app_exact. auto.
    - cbn [Nat.mul]. rewrite skipn_app. rewrite skipn_all2 by lia. rewrite HL.
      replace (blocks d h + i * blocks d h - blocks d h)%nat with (i * blocks d h)%nat by lia.
      cbn [app]. auto. }
  rewrite skipn_map, firstn_map. rewrite (HG seeds i Hi), map_map. reflexivity.
Qed.

Lemma values_to_array_to_value : forall T l, cty_ok T = true ->
  Forall (fun v => wt T v = true) l -> length l = elements_per_block T ->
  values_to_array T (map (to_value T) l) = Ok l.
Proof.
  intros T l Hok HF HL. unfold values_to_array. rewrite map_length, HL, Nat.eqb_refl. cbn [negb].
  rewrite Forall_forall in HF. clear HL.
  induction l as [|v l IH]; cbn [map mapM]; auto.
  rewrite from_to_value by (auto; apply HF; left; auto). cbn [bind].
  rewrite IH by (intros; apply HF; right; auto). reflexivity.
Qed.

Lemma set_nth_nth_error : forall A (l : list A) i v j, (i < length l)%nat ->
  nth_error (set_nth l i v) j = if Nat.eqb j i then Some v else nth_error l j.
Proof.
  induction l as [|a l IH]; intros i v j Hi; cbn in Hi; [lia|].
  destruct i as [|i]; destruct j as [|j]; cbn; auto. apply IH. lia.
Qed.
Lemma set_nth_length : forall A (l : list A) i v, length (set_nth l i v) = length l.
Proof. induction l as [|a l IH]; intros [|i] v; cbn; auto. Qed.

Lemma compute_value_correction_inv : forall h sa sb alpha beta inv vs T, (h < nlevels d)%nat ->
  level_type d h T ->
  compute_value_correction aes d h sa sb alpha beta inv = Ok vs ->
  exists bT ea eb corrs, from_value T beta = Ok bT /\ wt T bT = true /\
    enough_bytes T (16 * blocks d h) /\
    convert_bytes T (node_bytes h sa) = Ok ea /\ convert_bytes T (node_bytes h sb) = Ok eb /\
    length ea = elements_per_block T /\ length eb = elements_per_block T /\
    Forall (fun v => wt T v = true) ea /\ Forall (fun v => wt T v = true) eb /\
    values_to_array T vs = Ok corrs /\ length corrs = elements_per_block T /\
    Forall (fun v => wt T v = true) corrs /\
    (domain_to_block_index d alpha h < elements_per_block T)%nat /\
    forall j a b, nth_error ea j = Some a -> nth_error eb j = Some b ->
      nth_error corrs j = Some
        (let delta := if Nat.eqb j (domain_to_block_index d alpha h) then bT else vzero T in
         let c := vadd T (vadd T b delta) (vneg T a) in
         if inv then vneg T c else c).
Proof.
  intros h sa sb alpha beta inv vs T Hh (Hok & p & Hp & HD) H.
  unfold compute_value_correction in H. unfold at_or_ub at 1 in H. rewrite Hp in H. cbn [bind] in H.
  bind_inv H. rename a into T'.
  assert (T' = T).
  { unfold get_value_correction_function in Hb. destruct (find _ (d_types d)) as [t|] eqn:E; inv Hb.
    apply find_some in E. destruct E as [E1 E2]. apply ptype_eqb_eq in E2.
    pose proof (wf_types _ W) as HT. rewrite Forall_forall in HT. specialize (HT _ E1).
    eapply denotes_fun; [|exact HD]. rewrite <- E2. apply to_value_type_denotes. auto. }
  subst T'. clear Hb. unfold compute_value_correction_for in H.
  assert (HE : prg_evaluate aes kPrgKeyValue
            (map (fun j : nat => w128 (sa + N.of_nat j)) (seq 0 (blocks d h)) ++
             map (fun j : nat => w128 (sb + N.of_nat j)) (seq 0 (blocks d h)))
            = hash_expanded_seeds aes (blocks d h) [sa; sb]).
  { unfold hash_expanded_seeds. cbn [map concat]. rewrite app_nil_r. reflexivity. }
  rewrite HE in H.
  rewrite (block_bytes_node h [sa; sb] 0 sa), (block_bytes_node h [sa; sb] 1 sb) in H by reflexivity.
  bind_inv H. rename a into bT. bind_inv H. rename a into ea. bind_inv H. rename a into eb.
  bind_inv H. rename a into old. apply at_or_ub_ok in Hb2. inv H.
  pose proof (from_value_wt _ _ _ Hok Hb) as HwB.
  pose proof (convert_bytes_enough _ _ _ Hok Hb0) as HenA. rewrite node_bytes_length in HenA.
  pose proof (convert_bytes_enough _ _ _ Hok Hb1) as HenB. rewrite node_bytes_length in HenB.
  destruct (convert_bytes_ok T (node_bytes h sa) Hok) as (ea' & Hea & HLa & HFa); [rewrite node_bytes_length; auto|].
  destruct (convert_bytes_ok T (node_bytes h sb) Hok) as (eb' & Heb & HLb & HFb); [rewrite node_bytes_length; auto|].
  assert (ea' = ea) by congruence. assert (eb' = eb) by congruence. subst ea' eb'.
  assert (Hidx : (domain_to_block_index d alpha h < length eb)%nat).
  { apply nth_error_Some. congruence. }
  rewrite Forall_forall in HFa, HFb.
  set (idx := domain_to_block_index d alpha h) in *.
  set (f := fun b a : cval => let d0 := vsub T b a in if inv then vneg T d0 else d0).
  set (eb2 := set_nth eb idx (vadd T old bT)).
  assert (HLz : length (zip2 f eb2 ea) = elements_per_block T).
  { rewrite zip2_length; unfold eb2; rewrite set_nth_length; lia. }
  assert (HWeb2 : forall j v, nth_error eb2 j = Some v -> wt T v = true).
  { intros j v Hj. unfold eb2 in Hj. rewrite set_nth_nth_error in Hj by auto.
    destruct (Nat.eqb j idx).
    - inv Hj. apply vadd_wt; auto. apply HFb. eapply nth_error_In; eauto.
    - apply HFb. eapply nth_error_In; eauto. }
  assert (HWz : Forall (fun v => wt T v = true) (zip2 f eb2 ea)).
  { apply Forall_forall. intros v Hv. apply In_nth_error in Hv. destruct Hv as (j & Hj).
    rewrite zip2_nth_error in Hj. destruct (nth_error eb2 j) eqn:E1; [|discriminate].
    destruct (nth_error ea j) eqn:E2; [|discriminate]. inv Hj. unfold f. cbv zeta.
    apply HWeb2 in E1. apply nth_error_In, HFa in E2.
    destruct inv; [apply vneg_wt; auto|]; apply vsub_wt; auto. }
  exists bT, ea, eb, (zip2 f eb2 ea).
  split; [auto|]. split; [auto|]. split; [auto|]. split; [auto|]. split; [auto|]. split; [auto|].
  split; [auto|]. split; [apply Forall_forall; auto|]. split; [apply Forall_forall; auto|].
  split; [|split; [|split; [|split]]]; auto; try lia.
  - apply values_to_array_to_value; auto.
  - intros j a b Ha Hbj. rewrite zip2_nth_error, Ha. unfold eb2 at 1. rewrite set_nth_nth_error by auto.
    assert (Hwa : wt T a = true) by (apply HFa; eapply nth_error_In; eauto).
    assert (Hwb : wt T b = true) by (apply HFb; eapply nth_error_In; eauto).
    fold idx. destruct (Nat.eqb_spec j idx) as [E|E].
    + subst j. rewrite Hb2 in Hbj. inv Hbj. unfold f. cbv zeta. rewrite vsub_add_neg by auto using vadd_wt.
      reflexivity.
    + rewrite Hbj. unfold f. cbv zeta. rewrite vsub_add_neg by auto. rewrite (vadd_0_r T b) by auto. reflexivity.
Qed.

(** The corrected and negated share of one element. *)
Definition share_of (T : cty) (party : Z) (bit : bool) (e c : cval) : cval :=
  let e := if bit then vadd T e c else e in
  if (party =? 1)%Z then vneg T e else e.

Lemma share_sum_on : forall T a b delta (bit1 : bool), cty_ok T = true -> wt T a = true -> wt T b = true ->
  wt T delta = true ->
  let c := vadd T (vadd T b delta) (vneg T a) in
  let c := if bit1 then vneg T c else c in
  vadd T (share_of T 0 (negb bit1) a c) (share_of T 1 bit1 b c) = delta.
Proof.
  intros T a b delta bit1 Hok Ha Hb Hd. unfold share_of. cbv zeta. change (0 =? 1)%Z with false; change (1 =? 1)%Z with true; cbn [negb].
  assert (Hna : wt T (vneg T a) = true) by (apply vneg_wt; auto).
  assert (Hnb : wt T (vneg T b) = true) by (apply vneg_wt; auto).
  assert (Hbd : wt T (vadd T b delta) = true) by (apply vadd_wt; auto).
  set (x := vadd T b delta) in *.
  assert (HX : vadd T a (vadd T x (vneg T a)) = x).
  { rewrite (vadd_comm T x) by auto. rewrite vadd_assoc by auto.
    rewrite vadd_neg_r by auto. apply vadd_0_l; auto. }
  assert (HY : vadd T x (vneg T b) = delta).
  { unfold x. rewrite (vadd_comm T b delta) by auto. rewrite <- vadd_assoc by auto.
    rewrite vadd_neg_r by auto. apply vadd_0_r; auto. }
  assert (Hc : wt T (vadd T x (vneg T a)) = true) by (apply vadd_wt; auto).
  set (c := vadd T x (vneg T a)) in *.  clearbody x c.
  destruct bit1; cbn [negb].
  - rewrite vneg_add by (auto; apply vneg_wt; auto).
    rewrite vneg_neg by auto.
    rewrite (vadd_comm T (vneg T b) c) by auto.
        rewrite vadd_assoc by auto. rewrite HX. auto.
  - rewrite HX. auto.
Qed.

Lemma share_sum_off : forall T e c bit, cty_ok T = true -> wt T e = true -> wt T c = true ->
  vadd T (share_of T 0 bit e c) (share_of T 1 bit e c) = vzero T.
Proof.
  intros T e c bit Hok He Hc. unfold share_of. change (0 =? 1)%Z with false; change (1 =? 1)%Z with true; cbv iota.
  apply vadd_neg_r; auto. destruct bit; auto. apply vadd_wt; auto.
Qed.

End Gen.
