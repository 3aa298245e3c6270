(** What a single key reveals: proofs of the statements in terms of keys. *)
From Coq Require Import List NArith ZArith Lia Bool ZifyBool ZifyNat ZifyN.
From Verif Require Import Base ListUtil ValueTypesModel ValueTypesSpec ValueTypesProofs
  ConvProofs BitsProofs TypeProofs DpfModel DpfTree DpfWf DpfGen DpfPoint DpfSpec DpfHist DpfFacts
  ConvSurj DpfPrivacySpec DpfPrivacy DpfShape.
Import ListNotations.
Ltac Zify.zify_post_hook ::= Z.div_mod_to_equations.
Open Scope N_scope.

Lemma lowest_even : forall x, lowest_bit x = false -> N.even x = true.
Proof. intros x H. unfold lowest_bit in H. rewrite <- N.negb_odd, H. reflexivity. Qed.

Definition party_of (f : bool) : Z := if f then 1%Z else 0%Z.

Section Hide.
Variables (F : fops) (ps : list param) (types : list cty) (d : dpf).
Hypothesis HC : created F ps types d.

Lemma hide_wf : wf d.
Proof using HC. exact (proj1 (created_wf _ _ _ _ HC)). Qed.
Lemma h2t_n : forall h, (h < nlevels d)%nat -> (h2t d h <= n_cws d)%nat.
Proof using HC. intros h Hh. unfold n_cws. rewrite (wf_levels _ hide_wf). pose proof (h2t_le_last d hide_wf h Hh). lia. Qed.
Lemma has_type : forall h T, level_has ps h T -> level_type d h T.
Proof using HC.
  intros h T (Hok & p & Hp & HD). split; auto.
  destruct (proj2 (proj2 (created_wf _ _ _ _ HC)) h p Hp) as (q & Hq & _ & Hty). exists q. split; auto. rewrite Hty. auto.
Qed.

Lemma path_node_anode : forall aes f key alpha i, k_party key = party_of f ->
  path_node aes (last_ld ps) key alpha i = anode d f (k_cws key) (key_seed key) alpha aes i.
Proof using HC.
  intros aes f key alpha i Hp. unfold path_node, anode. rewrite (created_last_ld _ _ _ _ HC), <- Nat2N.inj_sub.
  unfold key_bit. rewrite Hp. destruct f; reflexivity.
Qed.
Lemma seed_uses_ext : forall s s', (forall i, (i <= n_cws d)%nat -> s i = s' i) -> seed_uses d s = seed_uses d s'.
Proof using HC.
  intros s s' H. unfold seed_uses. f_equal; apply flat_map_ext_in; intros i Hi; apply in_seq in Hi.
  - rewrite H; auto. unfold n_cws. lia.
  - fold (h2t d i). rewrite H; auto. apply h2t_n. unfold nlevels. lia.
Qed.

(** Nodes on a path do not change if the cipher changes elsewhere. *)
Lemma anode_agree : forall aes aes1 f cws s alpha uses, length cws = n_cws d ->
  disjoint (seed_uses d (fun i => fst (anode d f cws s alpha aes i))) uses -> agree_off uses aes aes1 ->
  forall i, (i <= n_cws d)%nat -> anode d f cws s alpha aes1 i = anode d f cws s alpha aes i.
Proof using HC.
  intros aes aes1 f cws s alpha uses HL HD HO. induction i as [|i IH]; intros Hi; [reflexivity|].
  rewrite !(anode_S d hide_wf f cws s alpha HL) by lia. rewrite IH by lia.
  assert (HH : forall k, k = kPrgKeyLeft \/ k = kPrgKeyRight ->
    hash aes1 k (fst (anode d f cws s alpha aes i)) = hash aes k (fst (anode d f cws s alpha aes i))).
  { intros k Hk. unfold hash. f_equal. apply HO. apply HD. apply in_or_app. left. apply in_flat_map. exists i.
    split; [apply in_seq; unfold n_cws in Hi; lia|]. destruct Hk as [-> | ->]; [left|right; left]; reflexivity. }
  unfold step. destruct (abit d alpha i); rewrite HH by auto; reflexivity.
Qed.

(** ** A successful run *)
Section Run.
Variable aes : N -> N -> N.
Variables (alpha : N) (beta : list pvalue) (s0 s1 : N) (k0 k1 : dkey).
Hypothesis Ha : alpha < P128.
Hypothesis HG : generate_keys aes d alpha beta s0 s1 = Ok (k0, k1).

Definition seed_of (f : bool) : N := if f then s1 else s0.

Lemma run_keys : k_seed k0 = Some s0 /\ k_seed k1 = Some s1 /\ k_party k0 = 0%Z /\ k_party k1 = 1%Z /\
  k_cws k1 = k_cws k0 /\ k_last k1 = k_last k0 /\ length (k_cws k0) = n_cws d /\ accepted d alpha beta.
Proof using HC Ha HG.
  pose proof (generate_keys_level aes d hide_wf _ _ _ _ _ _ Ha HG) as (H1 & H2 & H3 & H4 & H5 & H6 & H7 & _).
  do 4 (split; [assumption|]). split; [auto|]. split; [auto|]. split; [auto|].
  split; [exact Ha|]. exists aes, s0, s1, (k0, k1). auto.
Qed.

Lemma run_states : exists gs, 
  (forall i, (i <= n_cws d)%nat -> g_bit0 (gs i) <> g_bit1 (gs i)) /\
  (forall f i, (i <= n_cws d)%nat -> node_a f (gs i) = anode d f (k_cws k0) (seed_of f) alpha aes i /\
                                     node_b f (gs i) = anode d (negb f) (k_cws k0) (seed_of (negb f)) alpha aes i) /\
  (forall i, (i < n_cws d)%nat -> exists cw, nth_error (k_cws k0) i = Some cw /\
     generate_next aes d (S i) alpha beta (gs i) = Ok (gs (S i), cw) /\
     (tree_to_hierarchy d i = None -> cw_values cw = [])) /\
  (forall h, (h < nlevels d)%nat -> exists b, nth_error beta h = Some b /\
     compute_value_correction aes d h (g_seed0 (gs (h2t d h))) (g_seed1 (gs (h2t d h)))
       (N.shiftr alpha (N.of_nat (ld_last d - ld d h))) b (g_bit1 (gs (h2t d h))) = Ok (kv d (k_cws k0) (k_last k0) h)).
Proof using HC Ha HG.
  pose proof hide_wf as W. pose proof run_keys as (_ & _ & _ & _ & _ & _ & HL & _).
  pose proof HG as H. unfold generate_keys in H.
  bind_inv H. bind_inv H. bind_inv H. bind_inv H. destruct a2 as [g cws]. bind_inv H. rename a2 into bl. bind_inv H.
  rename a2 into last. inv H. cbn [k_cws k_last] in *. fold (n_cws d) in Hb2.
  apply generate_loop_states in Hb2. destruct Hb2 as (gs & H0 & Hn & Hs). exists gs.
  assert (Hbits : forall i, (i <= n_cws d)%nat -> g_bit0 (gs i) <> g_bit1 (gs i)).
  { induction i as [|i IH]; intros Hi.
    - rewrite H0. discriminate.
    - destruct (Hs i ltac:(lia)) as (cw & _ & Hnx). apply generate_next_inv in Hnx; auto; [tauto|apply IH; lia]. }
  assert (Hnodes : forall i, (i <= n_cws d)%nat ->
    g_node0 (gs i) = anode d false cws s0 alpha aes i /\ g_node1 (gs i) = anode d true cws s1 alpha aes i).
  { induction i as [|i IH]; intros Hi.
    - rewrite H0. split; reflexivity.
    - destruct (IH ltac:(lia)) as [IH0 IH1]. destruct (Hs i ltac:(lia)) as (cw & Hcw & Hnx).
      apply generate_next_inv in Hnx; auto; [|apply Hbits; lia]. cbv zeta in Hnx. destruct Hnx as (_ & N0 & N1 & _).
      rewrite !(anode_S d W _ cws _ alpha HL) by lia. rewrite <- IH0, <- IH1.
      rewrite (cw_at_nth d cws HL i ltac:(lia)) in Hcw. inv Hcw. split; symmetry; [exact N0|exact N1]. }
  split; auto. split; [|split].
  - intros [] i Hi; destruct (Hnodes i Hi); split; auto.
  - intros i Hi. destruct (Hs i Hi) as (cw & Hcw & Hnx). exists cw. split; auto. split; auto.
    intros HN. apply generate_next_inv in Hnx; auto; [|apply Hbits; lia]. destruct Hnx as (_ & _ & _ & _ & HV).
    unfold gen_values in HV. replace (1 + i - 1)%nat with i in HV by lia. rewrite HN in HV. congruence.
  - intros h Hh. pose proof (h2t_n h Hh) as Hle. pose proof (wf_levels _ W) as Hlev. pose proof (wf_pos _ W) as Hpos.
    unfold kv. destruct (Nat.ltb_spec h (nlevels d - 1)) as [Hlt|Hge].
    + pose proof (wf_h2t_mono _ W h (nlevels d - 1) Hlt ltac:(lia)) as Hm.
      destruct (Hs (h2t d h) ltac:(unfold n_cws; lia)) as (cw & Hcw & Hnx). rewrite Hcw.
      apply generate_next_inv in Hnx; auto. destruct Hnx as (_ & _ & _ & _ & HV).
      unfold gen_values in HV. replace (1 + h2t d h - 1)%nat with (h2t d h) in HV by lia.
      rewrite (tree_to_hierarchy_h2t d W) in HV by auto. bind_inv HV. apply at_or_ub_ok in Hb2. eexists. split; [exact Hb2|].
      rewrite <- HV. f_equal. unfold shr128.
      destruct (Nat.ltb_spec (ld_last d - ld d h) 128) as [E|E]; auto.
      apply N.bits_inj. intros k. rewrite N.shiftr_spec', N.bits_0. apply testbit_high; auto. lia.
    + assert (h = (nlevels d - 1)%nat) by lia. subst h.
      assert (HlastT : h2t d (nlevels d - 1) = n_cws d) by (unfold n_cws; lia).
      rewrite HlastT, Hn. apply at_or_ub_ok in Hb3. exists bl. split; auto.
      replace (ld_last d - ld d (nlevels d - 1))%nat with 0%nat by (unfold ld_last; lia).
      change (N.of_nat 0) with 0. rewrite N.shiftr_0_r. auto.
Qed.

(** The value corrections of a level. *)
Lemma run_values : forall f h, (h < nlevels d)%nat -> exists p b T bT corrs, 
  nth_error (d_params d) h = Some p /\ nth_error beta h = Some b /\
  get_value_correction_function d (p_type p) = Ok T /\ level_type d h T /\ enough_bytes T (16 * blocks d h) /\
  from_value T b = Ok bT /\ wt T bT = true /\
  kv d (k_cws k0) (k_last k0) h = map (to_value T) corrs /\ length corrs = elements_per_block T /\
  Forall (fun v => wt T v = true) corrs /\
  let sa := fst (anode d f (k_cws k0) (seed_of f) alpha aes (h2t d h)) in
  let ta := snd (anode d f (k_cws k0) (seed_of f) alpha aes (h2t d h)) in
  let sb := fst (anode d (negb f) (k_cws k0) (seed_of (negb f)) alpha aes (h2t d h)) in
  exists ea eb, convert_bytes T (node_bytes aes d h sa) = Ok ea /\ convert_bytes T (node_bytes aes d h sb) = Ok eb /\
    length ea = elements_per_block T /\ Forall (fun v => wt T v = true) ea /\
    length eb = elements_per_block T /\ Forall (fun v => wt T v = true) eb /\
    let idx := domain_to_block_index d (N.shiftr alpha (N.of_nat (ld_last d - ld d h))) h in
    let bit1 := if f then ta else negb ta in
    eb = if f then solve_first T corrs ea idx bT bit1 else solve_second T corrs ea idx bT bit1.
Proof using HC Ha HG.
  intros f h Hh. pose proof hide_wf as W. pose proof run_keys as (_ & _ & _ & _ & _ & _ & _ & Hacc).
  destruct run_states as (gs & Hbits & Hnodes & _ & Hv).
  destruct (accepted_level d alpha beta W Hacc) as (_ & _ & _ & _ & HH).
  destruct (HH h Hh) as (p & b & T & bT & Hp & Hb & HGt & HT & HF & HW & HE). clear HH.
  destruct (Hv h Hh) as (b' & Hb' & Hcv). assert (b' = b) by congruence. subst b'.
  pose proof (compute_value_correction_inv aes d W _ _ _ _ _ _ _ T Hh HT Hcv) as
    (bT' & e0 & e1 & corrs & HF' & _ & _ & H0 & H1 & HL0 & HL1 & HW0 & HW1 & HVA & HLc & HWc & _ & Hj).
  assert (bT' = bT) by congruence. subst bT'. pose proof (proj1 HT) as Hok.
  assert (HL : (h2t d h <= n_cws d)%nat) by (apply h2t_n; auto).
  exists p, b, T, bT, corrs. do 7 (split; [assumption|]). split.
  { rewrite (cvc_eq _ _ _ _ _ _ _ _ _ _ Hp HGt) in Hcv. unfold compute_value_correction_for in Hcv.
    bind_inv Hcv. bind_inv Hcv. bind_inv Hcv. bind_inv Hcv.
    assert (HX : forall l l', values_to_array T l = Ok l' -> (exists m, l = map (to_value T) m /\ Forall (fun v => wt T v = true) m /\
       length m = elements_per_block T) -> l = map (to_value T) l').
    { intros l l' HV (m & -> & HFm & HLm). rewrite values_to_array_to_value in HV by auto. inv HV. reflexivity. }
    apply HX; auto. assert (a0 = e0) by congruence. assert (a1 = e1) by congruence. subst a0 a1. rewrite Hb0 in HF. inv HF.
    injection Hcv as Hcv. eexists. split; [symmetry; exact Hcv|]. apply at_or_ub_ok in Hb3.
    assert (Hidx : (domain_to_block_index d (N.shiftr alpha (N.of_nat (ld_last d - ld d h))) h < length e1)%nat)
      by (apply nth_error_Some; congruence).
    assert (Hwa2 : wt T a2 = true) by (rewrite Forall_forall in HW1; apply HW1; eapply nth_error_In; eauto).
    split.
    - apply Forall_forall. intros v Hv'. apply In_nth_error in Hv'. destruct Hv' as (j & Hv').
      rewrite zip2_nth_error, set_nth_nth_error in Hv' by auto.
      destruct (nth_error e0 j) as [x|] eqn:Ex; [|destruct (Nat.eqb _ _); [discriminate|destruct (nth_error e1 j); discriminate]].
      apply nth_error_In in Ex. rewrite Forall_forall in HW0. specialize (HW0 x Ex).
      assert (HG' : forall y, wt T y = true -> wt T (let d0 := vsub T y x in if g_bit1 (gs (h2t d h)) then vneg T d0 else d0) = true).
      { intros y Hy. cbv zeta. destruct (g_bit1 _); auto using vneg_wt, vsub_wt. }
      destruct (Nat.eqb _ _).
      + inversion Hv'. apply HG'. apply vadd_wt; auto.
      + destruct (nth_error e1 j) as [y|] eqn:Ey; [|discriminate]. inversion Hv'. apply HG'.
        rewrite Forall_forall in HW1. apply HW1. eapply nth_error_In; eauto.
    - rewrite zip2_length; rewrite set_nth_length; lia. }
  split; [assumption|]. split; [assumption|]. cbv zeta.
  destruct (solve_unique T corrs e0 e1 _ bT _ Hok HLc HL0 HL1 HW0 HW1 HW Hj) as [HS1 HS0].
  destruct (Hnodes f (h2t d h) HL) as [Hna Hnb]. rewrite <- Hna, <- Hnb.
  assert (Hbit : g_bit1 (gs (h2t d h)) = if f then snd (node_a f (gs (h2t d h))) else negb (snd (node_a f (gs (h2t d h))))).
  { specialize (Hbits (h2t d h) HL). destruct f; [reflexivity|]. cbn [node_a g_node0 snd].
    destruct (g_bit0 (gs (h2t d h))), (g_bit1 (gs (h2t d h))); try reflexivity; congruence. }
  rewrite <- Hbit. destruct f; cbn [node_a node_b negb g_node0 g_node1 fst snd] in *.
  - exists e1, e0. do 6 (split; [assumption|]). assumption.
  - exists e0, e1. do 6 (split; [assumption|]). assumption.
Qed.

Lemma run_even : Forall (fun cw => N.even (cw_seed cw) = true) (k_cws k0).
Proof using HC Ha HG.
  destruct run_states as (gs & Hbits & _ & Hs & _). pose proof run_keys as (_ & _ & _ & _ & _ & _ & HL & _).
  apply Forall_forall. intros cw Hcw. apply In_nth_error in Hcw. destruct Hcw as (i & Hi).
  assert (Hlt : (i < n_cws d)%nat) by (rewrite <- HL; apply nth_error_Some; congruence).
  destruct (Hs i Hlt) as (cw' & Hi' & Hn & _). assert (cw' = cw) by congruence. subst cw'.
  apply (generate_next_need aes d false) in Hn; auto; [|apply Hbits; lia]. apply lowest_even. tauto.
Qed.
Lemma run_even_nodes : forall f i, (0 < i <= n_cws d)%nat ->
  lowest_bit (fst (anode d f (k_cws k0) (seed_of f) alpha aes i)) = false.
Proof using HC Ha HG.
  intros f i Hi. destruct run_states as (gs & Hbits & Hn & Hs & _).
  destruct (Hn f i ltac:(lia)) as [<- _]. destruct i as [|i]; [lia|].
  destruct (Hs i ltac:(lia)) as (cw & _ & Hg & _).
  apply (generate_next_need aes d f) in Hg; auto; [|apply Hbits; lia]. tauto.
Qed.
(** The expansions of party B's seeds. *)
Lemma run_need : forall f i, (i < n_cws d)%nat ->
  let A j := anode d f (k_cws k0) (seed_of f) alpha aes j in
  let sb j := fst (anode d (negb f) (k_cws k0) (seed_of (negb f)) alpha aes j) in
  hash aes kPrgKeyLeft (sb i) = need_left (hash aes kPrgKeyLeft (fst (A i))) (snd (A i)) (abit d alpha i)
     (corr_of (cw_at (k_cws k0) i)) (sb (S i)) /\
  hash aes kPrgKeyRight (sb i) = need_right (hash aes kPrgKeyRight (fst (A i))) (snd (A i)) (abit d alpha i)
     (corr_of (cw_at (k_cws k0) i)) (sb (S i)).
Proof using HC Ha HG.
  intros f i Hi. cbv zeta. destruct run_states as (gs & Hbits & Hn & Hs & _).
  pose proof run_keys as (_ & _ & _ & _ & _ & _ & HL & _).
  destruct (Hn f i ltac:(lia)) as [<- <-]. destruct (Hn f (S i) ltac:(lia)) as [_ <-].
  destruct (Hs i Hi) as (cw & Hcw & Hg & _). rewrite (cw_at_nth d (k_cws k0) HL i Hi) in Hcw. inv Hcw.
  apply (generate_next_need aes d f) in Hg; auto; [|apply Hbits; lia]. unfold abit. tauto.
Qed.
(** All blocks are 128-bit integers. *)
Lemma hash_bound : forall k y, on_blocks aes -> hash aes k y < 2 ^ 128.
Proof using. intros k y H. unfold hash. apply lxor_bound; [apply H|]; apply sigma_bound. Qed.
Lemma run_blocks : on_blocks aes -> s0 < 2 ^ 128 -> s1 < 2 ^ 128 ->
  Forall (fun cw => cw_seed cw < 2 ^ 128) (k_cws k0) /\
  forall f i, (i <= n_cws d)%nat -> fst (anode d f (k_cws k0) (seed_of f) alpha aes i) < 2 ^ 128.
Proof using HC Ha HG.
  intros HA H0 H1. pose proof run_keys as (_ & _ & _ & _ & _ & _ & HL & _).
  assert (HF : Forall (fun cw => cw_seed cw < 2 ^ 128) (k_cws k0)).
  { destruct run_states as (gs & Hbits & _ & Hs & _). apply Forall_forall. intros cw Hcw. apply In_nth_error in Hcw.
    destruct Hcw as (i & Hi). assert (Hlt : (i < n_cws d)%nat) by (rewrite <- HL; apply nth_error_Some; congruence).
    destruct (Hs i Hlt) as (cw' & Hi' & Hn & _). assert (cw' = cw) by congruence. subst cw'. clear - Hn HA.
    unfold generate_next in Hn. bind_inv Hn. rewrite !prg_evaluate_hash in Hn.
    cbn [g_seed0 g_seed1 g_bit0 g_bit1 map at_or_ub nth_error bind] in Hn. inv Hn. cbn [cw_seed].
    destruct (_ && _); apply lxor_bound; apply clear_bound; apply hash_bound; auto. }
  split; auto. intros f. induction i as [|i IH]; intros Hi.
  - cbn. unfold seed_of. destruct f; auto.
  - rewrite (anode_S d hide_wf _ _ _ _ HL) by lia. unfold step. cbn [fst].
    assert (Hcw : cw_seed (cw_at (k_cws k0) i) < 2 ^ 128).
    { rewrite Forall_forall in HF. apply HF. eapply nth_error_In. apply (cw_at_nth d _ HL). lia. }
    apply clear_bound. destruct (snd _); auto using lxor_bound, hash_bound.
Qed.
End Run.

(** * The shape of keys *)
Lemma tree_to_hierarchy_in : forall i, tree_to_hierarchy d i = None <-> ~ In i (d_h2t d).
Proof using HC.
  intros i. unfold tree_to_hierarchy.
  assert (HG : forall l k, tree_to_hierarchy_from l k i = None <-> ~ In i l).
  { induction l as [|x l IH]; intros k; cbn [tree_to_hierarchy_from]; [split; auto|].
    specialize (IH (S k)). destruct (tree_to_hierarchy_from l (S k) i) as [h|].
    - split; [discriminate|]. intros H. exfalso. apply H. right.
      destruct (in_dec Nat.eq_dec i l) as [Hi|Hi]; auto. apply IH in Hi. discriminate.
    - destruct (Nat.eqb_spec x i) as [->|Hn].
      + split; [discriminate|]. intros H. exfalso. apply H. left. auto.
      + split; auto. intros _ [H|H]; [congruence|]. apply IH; auto. }
  apply HG.
Qed.
Theorem generated_shape : forall aes alpha beta s0 s1 ks f, alpha < P128 ->
  generate_keys aes d alpha beta s0 s1 = Ok ks -> key_shape ps d (party_of f) (key_of f ks).
Proof using HC.
  intros aes alpha beta s0 s1 [k0 k1] f Ha HG. pose proof hide_wf as W.
  pose proof (run_keys aes _ _ _ _ _ _ Ha HG) as (Hs0 & Hs1 & Hp0 & Hp1 & Hcw & Hlast & HL & _).
  pose proof (run_even aes _ _ _ _ _ _ Ha HG) as Hev.
  destruct (run_states aes _ _ _ _ _ _ Ha HG) as (gs & Hbits & _ & Hs & _).
  assert (Hvals : forall h, (h < nlevels d)%nat -> exists T, level_has ps h T /\ block_of T (kv d (k_cws k0) (k_last k0) h)).
  { intros h Hh. destruct (run_values aes _ _ _ _ _ _ Ha HG false h Hh) as (p & b & T & bT & corrs & _ & _ & _ & HT & _ & _ & _ & Hkv & HLc & HWc & _).
    exists T. split; [eapply level_type_has; eauto|]. exists corrs. auto. }
  assert (HLn : nlevels d = length ps) by (apply (created_len _ _ _ _ HC)).
  assert (Hk : forall key, k_cws key = k_cws k0 -> k_last key = k_last k0 -> forall party, k_party key = party ->
    (exists s, k_seed key = Some s) -> key_shape ps d party key).
  { intros key Hc Hl party Hp Hsd. constructor; auto; rewrite ?Hc, ?Hl; auto.
    - intros h cw Hh Hcw'. destruct (Hvals h ltac:(lia)) as (T & HT & Hkv). exists T. split; auto.
      unfold kv in Hkv. destruct (Nat.ltb_spec h (nlevels d - 1)); [|lia]. unfold h2t in Hkv. rewrite Hcw' in Hkv. auto.
    - intros i cw Hi Hni. apply tree_to_hierarchy_in in Hni.
      assert (Hlt : (i < n_cws d)%nat) by (rewrite <- HL; apply nth_error_Some; congruence).
      destruct (Hs i Hlt) as (cw' & Hi' & _ & HN). assert (cw' = cw) by congruence. subst cw'. auto.
    - destruct (Hvals (nlevels d - 1)%nat) as (T & HT & Hkv); [pose proof (wf_pos _ W); lia|].
      exists T. rewrite <- HLn. split; auto. unfold kv in Hkv. rewrite Nat.ltb_irrefl in Hkv. auto. }
  destruct f; cbn [key_of fst snd party_of]; apply Hk; eauto.
Qed.

(** * Consistency with every alpha and beta *)
Lemma shape_values : forall party key, key_shape ps d party key ->
  forall h, (h < nlevels d)%nat -> exists T, level_type d h T /\ block_of T (kv d (k_cws key) (k_last key) h).
Proof using HC.
  intros party key S h Hh. pose proof hide_wf as W. pose proof (created_len _ _ _ _ HC) as HLn.
  unfold kv. destruct (Nat.ltb_spec h (nlevels d - 1)) as [Hlt|Hge].
  - destruct (nth_error (k_cws key) (h2t d h)) as [cw|] eqn:E.
    + destruct (ks_level _ _ _ _ S h cw ltac:(lia) E) as (T & HT & HB). exists T. split; auto. apply has_type; auto.
    + exfalso. apply nth_error_None in E. rewrite (ks_cws _ _ _ _ S), (wf_levels _ W) in E.
      pose proof (wf_h2t_mono _ W h (nlevels d - 1) Hlt ltac:(lia)). lia.
  - destruct (ks_last _ _ _ _ S) as (T & HT & HB). exists T. split; auto. apply has_type.
    replace h with (length ps - 1)%nat by lia. auto.
Qed.
Lemma shape_none : forall party key, key_shape ps d party key ->
  forall i cw, nth_error (k_cws key) i = Some cw -> tree_to_hierarchy d i = None -> cw_values cw = [].
Proof using HC. intros party key S i cw Hi HN. eapply ks_none; eauto. apply tree_to_hierarchy_in; auto. Qed.

Section Simulate.
Variable aes : N -> N -> N.
Variables (f : bool) (key : dkey) (alpha : N) (beta : list pvalue) (sb : nat -> N).
Hypothesis HS : key_shape ps d (party_of f) key.
Hypothesis Hacc : accepted d alpha beta.
Hypothesis Hsb : forall i, (0 < i <= n_cws d)%nat -> N.even (sb i) = true.
Hypothesis HND : NoDup (seed_uses d sb).
Hypothesis HD : disjoint (path_uses aes ps d key alpha) (seed_uses d sb).

Definition sim_other : dkey :=
  {| k_seed := Some (sb 0%nat); k_cws := k_cws key; k_party := party_of (negb f); k_last := k_last key |}.
Lemma sim_disjoint : forall q, In q (seed_uses d (fun i => fst (anode d f (k_cws key) (key_seed key) alpha aes i))) ->
  ~ In q (seed_uses d sb).
Proof using HC HS HD.
  intros q Hq. apply HD. unfold path_uses.
  rewrite (seed_uses_ext _ (fun i => fst (anode d f (k_cws key) (key_seed key) alpha aes i))); auto.
  intros i _. rewrite (path_node_anode aes f); auto. apply (ks_party _ _ _ _ HS).
Qed.
(** With any choice [nb] of bytes that give the needed elements. *)
Lemma sim_with : forall nb, (forall h, (h < nlevels d)%nat ->
    nb_ok aes d f (k_cws key) (k_last key) (key_seed key) alpha beta h (nb h)) ->
  let aes1 := aes' aes d f (k_cws key) (key_seed key) sb alpha nb in
  generate_keys aes1 d alpha beta (if f then sb 0%nat else key_seed key) (if f then key_seed key else sb 0%nat)
    = Ok (if f then (sim_other, key) else (key, sim_other)) /\
  (forall i, (i <= n_cws d)%nat -> fst (path_node aes1 (last_ld ps) sim_other alpha i) = sb i) /\
  agree_off (seed_uses d sb) aes aes1 /\
  (on_blocks aes -> key_blocks key -> (forall i, (i <= n_cws d)%nat -> sb i < 2 ^ 128) -> on_blocks aes1).
Proof using HC HS Hacc Hsb HND HD.
  intros nb Hnb aes1. pose proof hide_wf as W.
  pose proof (ks_cws _ _ _ _ HS) as HL. fold (n_cws d) in HL.
  assert (Hev : forall i, (0 < i <= n_cws d)%nat -> lowest_bit (sb i) = false) by (intros; apply even_lowest; auto).
  assert (Hk : keyA f (k_cws key) (k_last key) (key_seed key) = key).
  { destruct (ks_seed _ _ _ _ HS) as (s & Hs). pose proof (ks_party _ _ _ _ HS) as Hp. destruct key as [ks kc kp kl].
    unfold keyA, key_seed. cbn [k_seed k_cws k_party k_last] in *. subst ks kp. reflexivity. }
  assert (Ho : keyB f (k_cws key) (k_last key) sb = sim_other).
  { unfold keyB, sim_other. destruct f; reflexivity. }
  split; [|split; [|split]].
  - unfold aes1. transitivity (Ok (if f then (keyB f (k_cws key) (k_last key) sb, keyA f (k_cws key) (k_last key) (key_seed key))
      else (keyA f (k_cws key) (k_last key) (key_seed key), keyB f (k_cws key) (k_last key) sb))); [|rewrite Hk, Ho; reflexivity].
    apply (keys_back aes d W f (k_cws key) (k_last key) (key_seed key) sb alpha beta HL (ks_even _ _ _ _ HS)
             (shape_values _ _ HS) (shape_none _ _ HS) Hacc Hev HND sim_disjoint nb Hnb).
  - intros i Hi. rewrite (path_node_anode aes1 (negb f)) by reflexivity. unfold anode. cbn [sim_other k_cws key_seed k_seed].
    unfold aes1. rewrite (bnode_back aes d W f (k_cws key) (k_last key) (key_seed key) sb alpha beta HL (ks_even _ _ _ _ HS)
             (shape_values _ _ HS) (shape_none _ _ HS) Hacc Hev HND sim_disjoint nb Hnb i Hi). reflexivity.
  - intros k x Hx. unfold aes1, aes'. apply program_out. rewrite tbl_uses. auto.
  - intros HA [_ HB] Hs k x Hx. unfold aes1.
    apply (aes'_bound aes d f (k_cws key) (k_last key) (key_seed key) sb alpha beta HL (shape_values _ _ HS) (shape_none _ _ HS)
             Hev nb Hnb); auto.
Qed.
Theorem simulated : exists aes1,
  generate_keys aes1 d alpha beta (if f then sb 0%nat else key_seed key) (if f then key_seed key else sb 0%nat)
    = Ok (if f then (sim_other, key) else (key, sim_other)) /\
  (forall i, (i <= n_cws d)%nat -> fst (path_node aes1 (last_ld ps) sim_other alpha i) = sb i) /\
  agree_off (seed_uses d sb) aes aes1 /\
  (on_blocks aes -> key_blocks key -> (forall i, (i <= n_cws d)%nat -> sb i < 2 ^ 128) -> on_blocks aes1).
Proof using HC HS Hacc Hsb HND HD.
  destruct (finite_choice bytes (nb_ok aes d f (k_cws key) (k_last key) (key_seed key) alpha beta) (nlevels d) [])
    as (nb & Hnb).
  { intros h Hh. apply (nb_exists aes d hide_wf); auto. apply (shape_values _ _ HS). }
  eexists. apply (sim_with nb Hnb).
Qed.
End Simulate.

(** * The same keys for another alpha and beta *)

(** The seeds of the other party of [f] along the path of [alpha]. *)
Definition other_seed (aes : N -> N -> N) (f : bool) (ks : dkey * dkey) (alpha : N) (i : nat) : N :=
  fst (path_node aes (last_ld ps) (key_of (negb f) ks) alpha i).

Lemma run_other : forall aes alpha beta s0 s1 ks f, alpha < P128 ->
  generate_keys aes d alpha beta s0 s1 = Ok ks ->
  k_seed (key_of f ks) = Some (seed_of s0 s1 f) /\ k_cws (key_of f ks) = k_cws (fst ks) /\
  k_last (key_of f ks) = k_last (fst ks) /\ k_party (key_of f ks) = party_of f /\
  sim_other f (key_of f ks) (other_seed aes f ks alpha) = key_of (negb f) ks /\
  (if f then (key_of (negb f) ks, key_of f ks) else (key_of f ks, key_of (negb f) ks)) = ks /\
  (if f then other_seed aes f ks alpha 0%nat else key_seed (key_of f ks)) = s0 /\
  (if f then key_seed (key_of f ks) else other_seed aes f ks alpha 0%nat) = s1 /\
  forall i, other_seed aes f ks alpha i = fst (anode d (negb f) (k_cws (fst ks)) (seed_of s0 s1 (negb f)) alpha aes i).
Proof using HC.
  intros aes alpha beta s0 s1 [k0 k1] f Ha HG.
  pose proof (run_keys aes _ _ _ _ _ _ Ha HG) as (Hs0 & Hs1 & Hp0 & Hp1 & Hcw & Hlast & HL & _).
  assert (Ho : forall i, other_seed aes f (k0, k1) alpha i =
     fst (anode d (negb f) (k_cws (fst (k0, k1))) (seed_of s0 s1 (negb f)) alpha aes i)).
  { intros i. unfold other_seed. rewrite (path_node_anode aes (negb f)) by (destruct f; assumption).
    destruct f; cbn [negb key_of fst snd seed_of]; rewrite ?Hcw; unfold key_seed; rewrite ?Hs0, ?Hs1; reflexivity. }
  destruct f; cbn [negb key_of fst snd seed_of party_of] in *.
  - do 4 (split; [assumption|]). split; [|split; [reflexivity|split; [|split]]]; auto.
    + unfold sim_other. rewrite (Ho 0%nat), Hcw, Hlast. cbn. destruct k0. cbn in *. congruence.
    + rewrite Ho. reflexivity.
    + unfold key_seed. rewrite Hs1. reflexivity.
  - do 4 (split; [auto|]). split; [|split; [reflexivity|split; [|split]]]; auto.
    + unfold sim_other. rewrite (Ho 0%nat). cbn. destruct k1. cbn in *. congruence.
    + unfold key_seed. rewrite Hs0. reflexivity.
    + rewrite Ho. reflexivity.
Qed.
Lemma other_even : forall aes alpha beta s0 s1 ks f, alpha < P128 ->
  generate_keys aes d alpha beta s0 s1 = Ok ks ->
  forall i, (0 < i <= n_cws d)%nat -> N.even (other_seed aes f ks alpha i) = true.
Proof using HC.
  intros aes alpha beta s0 s1 ks f Ha HG i Hi. apply lowest_even.
  pose proof (run_other aes _ _ _ _ ks f Ha HG) as HO. rewrite (proj2 (proj2 (proj2 (proj2 (proj2 (proj2 (proj2 (proj2 HO)))))))).
  destruct ks as [k0 k1]. apply (run_even_nodes aes _ _ _ _ _ _ Ha HG (negb f)); auto.
Qed.

Section Transfer.
Variable aes : N -> N -> N.
Variables (f : bool) (alpha : N) (beta : list pvalue) (s0 s1 : N) (ks : dkey * dkey) (alpha' : N) (beta' : list pvalue).
Hypothesis Ha : alpha < P128.
Hypothesis HG : generate_keys aes d alpha beta s0 s1 = Ok ks.
Hypothesis Hacc : accepted d alpha' beta'.
Hypothesis HND : NoDup (path_uses aes ps d (key_of (negb f) ks) alpha).
Hypothesis HD : disjoint (path_uses aes ps d (key_of f ks) alpha') (path_uses aes ps d (key_of (negb f) ks) alpha).
Let kA := key_of f ks.
Let sb := other_seed aes f ks alpha.

Lemma transfer_with : forall nb, (forall h, (h < nlevels d)%nat ->
    nb_ok aes d f (k_cws kA) (k_last kA) (key_seed kA) alpha' beta' h (nb h)) ->
  let aes1 := aes' aes d f (k_cws kA) (key_seed kA) sb alpha' nb in
  generate_keys aes1 d alpha' beta' s0 s1 = Ok ks /\
  (forall i, (i <= n_cws d)%nat -> other_seed aes1 f ks alpha' i = sb i) /\
  path_uses aes1 ps d (key_of (negb f) ks) alpha' = path_uses aes ps d (key_of (negb f) ks) alpha /\
  agree_off (path_uses aes ps d (key_of (negb f) ks) alpha) aes aes1 /\
  (on_blocks aes -> s0 < 2 ^ 128 -> s1 < 2 ^ 128 -> on_blocks aes1).
Proof using HC Ha HG Hacc HND HD.
  intros nb Hnb aes1.
  pose proof (run_other aes _ _ _ _ ks f Ha HG) as (HO1 & HO2 & HO3 & HO4 & HO5 & HO6 & HO7 & HO8 & HO9).
  pose proof (generated_shape aes _ _ _ _ ks f Ha HG) as HS. fold kA in HS, HO1, HO2, HO3, HO4.
  pose proof (sim_with aes f kA alpha' beta' sb HS Hacc (other_even aes _ _ _ _ ks f Ha HG) HND HD nb Hnb) as HT.
  cbv zeta in HT. fold aes1 in HT. destruct HT as (T1 & T2 & T3 & T4).
  fold sb kA in HO5, HO6, HO7, HO8. fold sb in HO9.
  assert (Hsame : forall i, (i <= n_cws d)%nat -> other_seed aes1 f ks alpha' i = sb i).
  { intros i Hi. unfold other_seed. rewrite <- HO5. apply T2; auto. }
  split; [|split; [auto|split; [|split; [exact T3|]]]].
  - rewrite HO7, HO8, HO5 in T1. rewrite T1. f_equal. exact HO6.
  - unfold path_uses. apply seed_uses_ext. exact Hsame.
  - intros HA H0 H1. destruct ks as [k0 k1]. destruct (run_blocks aes _ _ _ _ _ _ Ha HG HA H0 H1) as [HB1 HB2].
    apply T4; auto.
    + split; [|rewrite HO2; exact HB1]. intros s Hs. rewrite HO1 in Hs. inv Hs. unfold seed_of. destruct f; auto.
    + intros i Hi. rewrite HO9. apply (HB2 (negb f)); auto.
Qed.
Theorem hides : exists aes1,
  generate_keys aes1 d alpha' beta' s0 s1 = Ok ks /\
  path_uses aes1 ps d (key_of (negb f) ks) alpha' = path_uses aes ps d (key_of (negb f) ks) alpha /\
  agree_off (path_uses aes ps d (key_of (negb f) ks) alpha) aes aes1 /\
  (on_blocks aes -> s0 < 2 ^ 128 -> s1 < 2 ^ 128 -> on_blocks aes1).
Proof using HC Ha HG Hacc HND HD.
  pose proof (generated_shape aes _ _ _ _ ks f Ha HG) as HS.
  destruct (finite_choice bytes (nb_ok aes d f (k_cws kA) (k_last kA) (key_seed kA) alpha' beta') (nlevels d) [])
    as (nb & Hnb).
  { intros h Hh. apply (nb_exists aes d hide_wf); auto. apply (shape_values _ _ HS). }
  eexists. destruct (transfer_with nb Hnb) as (T1 & _ & T2). split; [exact T1|exact T2].
Qed.
End Transfer.
End Hide.

Lemma program_agree : forall uses aes aes1 p, agree_off uses aes aes1 -> disjoint (asked aes p) uses ->
  run_program aes1 p = run_program aes p /\ asked aes1 p = asked aes p.
Proof.
  intros uses aes aes1 p HA. induction p as [b|k x next IH]; intros HD; [split; reflexivity|].
  cbn [run_program asked] in *. rewrite (HA k x) by (apply HD; left; reflexivity).
  destruct (IH (aes k x)) as [H1 H2]; [intros q Hq; apply HD; right; exact Hq|]. split; [exact H1|]. rewrite H2. reflexivity.
Qed.
