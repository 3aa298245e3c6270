(** What one party's keys reveal, for several key pairs at once. *)
From Coq Require Import List NArith ZArith Lia Bool ZifyBool ZifyNat ZifyN.
From Verif Require Import Base ListUtil ValueTypesModel ValueTypesSpec ValueTypesProofs
  ConvProofs BitsProofs TypeProofs DpfModel DpfTree DpfWf DpfGen DpfPoint DpfSpec DpfHist DpfCreate DpfFacts
  ConvSurj DpfPrivacySpec DpfPrivacy DpfShape DpfHide DpfBiject.
Import ListNotations.
Ltac Zify.zify_post_hook ::= Z.div_mod_to_equations.
Open Scope N_scope.

Section Batch.
Variables (F : fops) (ps : list param) (types : list cty) (d : dpf).
Hypothesis HC : created F ps types d.

(** * Changing the cipher elsewhere *)
Lemma loop_from_states : forall aes m i0 alpha beta gs cws, length cws = m ->
  (forall j cw, nth_error cws j = Some cw -> generate_next aes d (i0 + j) alpha beta (gs j) = Ok (gs (S j), cw)) ->
  generate_loop aes d m i0 alpha beta (gs 0%nat) = Ok (gs m, cws).
Proof using.
  intros aes. induction m as [|m IH]; intros i0 alpha beta gs [|cw cws] HL Hs; try discriminate; cbn [generate_loop].
  - reflexivity.
  - pose proof (Hs 0%nat cw eq_refl) as H0. rewrite Nat.add_0_r in H0. rewrite H0. cbn [bind].
    rewrite (IH (S i0) alpha beta (fun j => gs (S j)) cws); [reflexivity|cbn in HL; lia|].
    intros j c Hj. replace (S i0 + j)%nat with (i0 + S j)%nat by lia. apply Hs. exact Hj.
Qed.
Lemma cvc_agree : forall aes aes1 h sa sb a b inv,
  (forall j, (j < blocks d h)%nat -> hash aes1 kPrgKeyValue (w128 (sa + N.of_nat j)) = hash aes kPrgKeyValue (w128 (sa + N.of_nat j))) ->
  (forall j, (j < blocks d h)%nat -> hash aes1 kPrgKeyValue (w128 (sb + N.of_nat j)) = hash aes kPrgKeyValue (w128 (sb + N.of_nat j))) ->
  compute_value_correction aes1 d h sa sb a b inv = compute_value_correction aes d h sa sb a b inv.
Proof using.
  intros aes aes1 h sa sb a b inv HA HB. unfold compute_value_correction. cbv zeta. rewrite !prg_evaluate_hash.
  rewrite !map_app, !map_map.
  rewrite (map_ext_in (fun j => hash aes1 kPrgKeyValue (w128 (sa + N.of_nat j))) (fun j => hash aes kPrgKeyValue (w128 (sa + N.of_nat j)))).
  2:{ intros j Hj. apply in_seq in Hj. apply HA. lia. }
  rewrite (map_ext_in (fun j => hash aes1 kPrgKeyValue (w128 (sb + N.of_nat j))) (fun j => hash aes kPrgKeyValue (w128 (sb + N.of_nat j)))).
  2:{ intros j Hj. apply in_seq in Hj. apply HB. lia. }
  reflexivity.
Qed.

Lemma path_agree : forall aes aes1 f key a uses, key_shape ps d (party_of f) key -> agree_off uses aes aes1 ->
  disjoint (path_uses aes ps d key a) uses ->
  (forall i, (i <= n_cws d)%nat -> path_node aes1 (last_ld ps) key a i = path_node aes (last_ld ps) key a i) /\
  path_uses aes1 ps d key a = path_uses aes ps d key a.
Proof using HC.
  intros aes aes1 f key a uses HS HO HD.
  assert (HN : forall i, (i <= n_cws d)%nat -> path_node aes1 (last_ld ps) key a i = path_node aes (last_ld ps) key a i).
  { intros i Hi. rewrite !(path_node_anode F ps types d HC _ f) by (apply (ks_party _ _ _ _ HS)).
    eapply (anode_agree F ps types d HC); eauto; [apply (ks_cws _ _ _ _ HS)|].
    unfold path_uses in HD. rewrite (seed_uses_ext F ps types d HC _ (fun i => fst (anode d f (k_cws key) (key_seed key) a aes i))) in HD.
    - exact HD.
    - intros j Hj. rewrite (path_node_anode F ps types d HC _ f) by (apply (ks_party _ _ _ _ HS)). reflexivity. }
  split; auto. unfold path_uses. apply (seed_uses_ext F ps types d HC). intros i Hi. rewrite HN by auto. reflexivity.
Qed.

Theorem run_agree : forall aes aes1 alpha beta s0 s1 ks uses, alpha < P128 ->
  generate_keys aes d alpha beta s0 s1 = Ok ks -> agree_off uses aes aes1 ->
  (forall f, disjoint (path_uses aes ps d (key_of f ks) alpha) uses) ->
  generate_keys aes1 d alpha beta s0 s1 = Ok ks.
Proof using HC.
  intros aes aes1 alpha beta s0 s1 [k0 k1] uses Ha HG HO HD. pose proof (hide_wf F ps types d HC) as W.
  pose proof (run_keys F ps types d HC aes _ _ _ _ _ _ Ha HG) as (Hs0 & Hs1 & Hp0 & Hp1 & Hcw & Hlast & HL & _).
  pose proof (run_other F ps types d HC aes _ _ _ _ (k0, k1) false Ha HG) as HO9.
  pose proof HG as H. unfold generate_keys in H.
  bind_inv H. bind_inv H. bind_inv H. bind_inv H. destruct a2 as [g cws]. bind_inv H. rename a2 into bl. bind_inv H.
  rename a2 into last. inv H. cbn [k_cws k_last key_of] in *. fold (n_cws d) in Hb2.
  apply generate_loop_states in Hb2. destruct Hb2 as (gs & H0 & Hn & Hs).
  assert (Hbits : forall i, (i <= n_cws d)%nat -> g_bit0 (gs i) <> g_bit1 (gs i)).
  { induction i as [|i IH]; intros Hi.
    - rewrite H0. discriminate.
    - destruct (Hs i ltac:(lia)) as (cw & _ & Hnx). apply generate_next_inv in Hnx; auto; [tauto|apply IH; lia]. }
  assert (Hnodes : forall i, (i <= n_cws d)%nat ->
    g_node0 (gs i) = anode d false cws s0 alpha aes i /\ g_node1 (gs i) = anode d true cws s1 alpha aes i).
  { induction i as [|i IH]; intros Hi.
    - rewrite H0. split; reflexivity.
    - destruct (IH ltac:(lia)) as [IH0 IH1]. destruct (Hs i ltac:(lia)) as (cw & Hcw' & Hnx).
      apply generate_next_inv in Hnx; auto; [|apply Hbits; lia]. cbv zeta in Hnx. destruct Hnx as (_ & N0 & N1 & _).
      rewrite !(anode_S d W _ cws _ alpha HL) by lia. rewrite <- IH0, <- IH1.
      rewrite (cw_at_nth d cws HL i ltac:(lia)) in Hcw'. inv Hcw'. split; symmetry; [exact N0|exact N1]. }
  assert (HU : forall q, In q (seed_uses d (fun i => g_seed0 (gs i))) \/ In q (seed_uses d (fun i => g_seed1 (gs i))) ->
               aes1 (fst q) (snd q) = aes (fst q) (snd q)).
  { intros [k x] Hq. cbn [fst snd]. apply HO. destruct Hq as [Hq|Hq].
    - apply (HD false). cbn [key_of fst]. unfold path_uses.
      rewrite (seed_uses_ext F ps types d HC _ (fun i => g_seed0 (gs i))); auto.
      intros i Hi. rewrite (path_node_anode F ps types d HC _ false) by reflexivity. cbn [k_cws key_seed k_seed].
      destruct (Hnodes i Hi) as [<- _]. reflexivity.
    - apply (HD true). cbn [key_of snd]. unfold path_uses.
      rewrite (seed_uses_ext F ps types d HC _ (fun i => g_seed1 (gs i))); auto.
      intros i Hi. rewrite (path_node_anode F ps types d HC _ true) by reflexivity. cbn [k_cws key_seed k_seed].
      destruct (Hnodes i Hi) as [_ <-]. reflexivity. }
  assert (HX : forall k x, In (k, sigma x) (seed_uses d (fun i => g_seed0 (gs i))) \/
                           In (k, sigma x) (seed_uses d (fun i => g_seed1 (gs i))) -> hash aes1 k x = hash aes k x).
  { intros k x Hq. unfold hash. f_equal. apply (HU (k, sigma x) Hq). }
  assert (HLR : forall (s : nat -> N) i k, (i < n_cws d)%nat -> k = kPrgKeyLeft \/ k = kPrgKeyRight -> In (k, sigma (s i)) (seed_uses d s)).
  { intros s i k Hi Hk. apply in_or_app. left. apply in_flat_map. exists i.
    split; [apply in_seq; unfold n_cws in Hi; lia|]. destruct Hk as [-> | ->]; [left|right; left]; reflexivity. }
  assert (HV : forall (s : nat -> N) h j, (h < nlevels d)%nat -> (j < blocks d h)%nat ->
    In (kPrgKeyValue, sigma (w128 (s (h2t d h) + N.of_nat j))) (seed_uses d s)).
  { intros s h j Hh Hj. apply in_or_app. right. apply in_flat_map. exists h. split; [apply in_seq; unfold nlevels in Hh; lia|].
    apply in_map_iff. exists j. split; auto. apply in_seq. unfold blocks in Hj. lia. }
  assert (Hcv : forall h pa b inv, (h < nlevels d)%nat ->
    compute_value_correction aes1 d h (g_seed0 (gs (h2t d h))) (g_seed1 (gs (h2t d h))) pa b inv =
    compute_value_correction aes d h (g_seed0 (gs (h2t d h))) (g_seed1 (gs (h2t d h))) pa b inv).
  { intros h pa b inv Hh. apply cvc_agree; intros j Hj; apply HX.
    - left. exact (HV (fun i => g_seed0 (gs i)) h j Hh Hj).
    - right. exact (HV (fun i => g_seed1 (gs i)) h j Hh Hj). }
  assert (Hnext : forall i, (i < n_cws d)%nat -> generate_next aes1 d (1 + i) alpha beta (gs i) = generate_next aes d (1 + i) alpha beta (gs i)).
  { intros i Hi. unfold generate_next. rewrite !prg_evaluate_hash. cbn [map].
    rewrite (HX kPrgKeyLeft (g_seed0 (gs i))) by (left; apply (HLR (fun i => g_seed0 (gs i))); auto).
    rewrite (HX kPrgKeyLeft (g_seed1 (gs i))) by (right; apply (HLR (fun i => g_seed1 (gs i))); auto).
    rewrite (HX kPrgKeyRight (g_seed0 (gs i))) by (left; apply (HLR (fun i => g_seed0 (gs i))); auto).
    rewrite (HX kPrgKeyRight (g_seed1 (gs i))) by (right; apply (HLR (fun i => g_seed1 (gs i))); auto).
    replace (1 + i - 1)%nat with i by lia.
    destruct (tree_to_hierarchy d i) as [h|] eqn:Et; auto.
    apply (tree_to_hierarchy_some d W) in Et. destruct Et as [Hh He]. subst i.
    destruct (at_or_ub beta h) as [b| | |]; cbn [bind]; auto. rewrite Hcv by auto. reflexivity. }
  unfold generate_keys. destruct a, a0, a1. rewrite Hb, Hb0, Hb1. cbn [bind]. fold (n_cws d). rewrite <- H0.
  rewrite (loop_from_states aes1 (n_cws d) 1 alpha beta gs cws HL).
  2:{ intros j cw Hj. assert (Hlt : (j < n_cws d)%nat) by (rewrite <- HL; apply nth_error_Some; congruence).
      rewrite (Hnext j Hlt). destruct (Hs j Hlt) as (cw' & Hj' & Hg). assert (cw' = cw) as -> by congruence. exact Hg. }
  cbn [bind]. rewrite Hb3. cbn [bind].
  pose proof (wf_levels _ W) as Hlev. pose proof (wf_pos _ W) as Hpos.
  assert (HlastT : h2t d (nlevels d - 1) = n_cws d) by (unfold n_cws; lia).
  pose proof (Hcv (nlevels d - 1)%nat alpha bl (g_bit1 (gs (n_cws d))) ltac:(lia)) as Hcl. rewrite HlastT in Hcl.
  rewrite Hcl, Hn, Hb4. reflexivity.
Qed.

(** * Several pairs *)
Record job := { j_keys : dkey * dkey; j_alpha : N; j_beta : list pvalue; j_alpha' : N; j_beta' : list pvalue;
                j_s0 : N; j_s1 : N }.
Definition j_of (j : job) : (dkey * dkey) * (N * N) := (j_keys j, (j_alpha j, j_alpha' j)).
Definition j_swap (j : job) : job :=
  {| j_keys := j_keys j; j_alpha := j_alpha' j; j_beta := j_beta' j; j_alpha' := j_alpha j; j_beta' := j_beta j;
     j_s0 := j_s0 j; j_s1 := j_s1 j |}.
Definition j_run (aes : N -> N -> N) (j : job) : Prop :=
  j_alpha j < P128 /\ generate_keys aes d (j_alpha j) (j_beta j) (j_s0 j) (j_s1 j) = Ok (j_keys j).
Definition j_run' (aes : N -> N -> N) (j : job) : Prop :=
  generate_keys aes d (j_alpha' j) (j_beta' j) (j_s0 j) (j_s1 j) = Ok (j_keys j).

Variable f : bool.
Definition usesB (aes : N -> N -> N) (j : job) := path_uses aes ps d (key_of (negb f) (j_keys j)) (j_alpha j).
Definition usesA (aes : N -> N -> N) (j : job) := path_uses aes ps d (key_of f (j_keys j)) (j_alpha j).
Definition usesA' (aes : N -> N -> N) (j : job) := path_uses aes ps d (key_of f (j_keys j)) (j_alpha' j).
Definition usesB' (aes : N -> N -> N) (j : job) := path_uses aes ps d (key_of (negb f) (j_keys j)) (j_alpha' j).

Lemma others_uses_eq : forall aes js, others_uses aes ps d f (map j_of js) = flat_map (usesB aes) js.
Proof using. intros aes. induction js as [|j js IH]; cbn [map others_uses flat_map]; auto. unfold others_uses in IH. rewrite IH. reflexivity. Qed.
Lemma run_shape : forall aes j b, j_run aes j -> key_shape ps d (party_of b) (key_of b (j_keys j)).
Proof using HC. intros aes j b [Ha HG]. eapply generated_shape; eauto. Qed.

(** One step: exchange the first pair. *)
Lemma nodup_app : forall A (l l' : list A), NoDup (l ++ l') -> NoDup l /\ NoDup l' /\ forall x, In x l -> ~ In x l'.
Proof using.
  induction l as [|a l IH]; intros l' H; cbn in H.
  - split; [constructor|]. split; auto.
  - inversion H as [|? ? Hn HN]; subst. destruct (IH l' HN) as (H1 & H2 & H3). split.
    + constructor; auto. intros Hin. apply Hn. apply in_or_app. auto.
    + split; auto. intros x [->|Hx]; auto. intros Hx'. apply Hn. apply in_or_app. auto.
Qed.
Lemma disjoint_app : forall l a b, disjoint l (a ++ b) <-> disjoint l a /\ disjoint l b.
Proof using.
  intros l a b. unfold disjoint. split.
  - intros H. split; intros q Hq Hin; apply (H q Hq); apply in_or_app; auto.
  - intros [H1 H2] q Hq Hin. apply in_app_or in Hin. destruct Hin; [eapply H1|eapply H2]; eauto.
Qed.
Lemma flat_map_in_disjoint : forall aes l js j, disjoint l (flat_map (usesB aes) js) -> In j js -> disjoint (usesB aes j) l.
Proof using. intros aes l js j H Hj q Hq Hl. apply (H q Hl). apply in_flat_map. eauto. Qed.
Lemma disjoint_sym : forall l l', disjoint l l' -> disjoint l' l.
Proof using. intros l l' H q Hq Hl. apply (H q Hl). auto. Qed.

(** What the exchange of one pair leaves alone. *)
Lemma rest_kept : forall aes aes1 uses js, agree_off uses aes aes1 ->
  (forall j, In j js -> j_run aes j /\ disjoint (usesA aes j) uses /\ disjoint (usesA' aes j) uses /\ disjoint (usesB aes j) uses) ->
  (forall j, In j js -> j_run aes1 j /\ usesA aes1 j = usesA aes j /\ usesA' aes1 j = usesA' aes j /\ usesB aes1 j = usesB aes j) /\
  flat_map (usesB aes1) js = flat_map (usesB aes) js.
Proof using HC.
  intros aes aes1 uses js HO H.
  assert (HX : forall j, In j js -> j_run aes1 j /\ usesA aes1 j = usesA aes j /\ usesA' aes1 j = usesA' aes j /\ usesB aes1 j = usesB aes j).
  { intros j Hj. destruct (H j Hj) as ([Ha HG] & HA & HA' & HB). split; [split; auto|].
    - eapply run_agree; eauto. intros b. assert (b = f \/ b = negb f) as [-> | ->] by (destruct b, f; auto); assumption.
    - pose proof (generated_shape F ps types d HC aes _ _ _ _ _ f Ha HG) as SA.
      pose proof (generated_shape F ps types d HC aes _ _ _ _ _ (negb f) Ha HG) as SB.
      split; [exact (proj2 (path_agree aes aes1 f _ _ uses SA HO HA))|].
      split; [exact (proj2 (path_agree aes aes1 f _ _ uses SA HO HA'))|exact (proj2 (path_agree aes aes1 (negb f) _ _ uses SB HO HB))]. }
  split; auto. clear H. induction js as [|j js IH]; auto. cbn [flat_map]. rewrite IH by (intros; apply HX; right; auto).
  f_equal. apply HX. left. auto.
Qed.

Theorem batch_hides : forall js aes, Forall (j_run aes) js -> Forall (fun j => accepted d (j_alpha' j) (j_beta' j)) js ->
  all_apart aes ps d f (map j_of js) ->
  exists aes1, Forall (j_run' aes1) js /\ agree_off (others_uses aes ps d f (map j_of js)) aes aes1 /\
    (on_blocks aes -> Forall (fun j => j_s0 j < 2 ^ 128 /\ j_s1 j < 2 ^ 128) js -> on_blocks aes1) /\
    Forall (fun j => usesB' aes1 j = usesB aes j /\ usesA aes1 j = usesA aes j /\ usesA' aes1 j = usesA' aes j) js.
Proof using HC.
  intros js aes HR HA [HN HD]. rewrite others_uses_eq in *.
  assert (HD' : forall j, In j js -> disjoint (usesA aes j) (flat_map (usesB aes) js) /\ disjoint (usesA' aes j) (flat_map (usesB aes) js)).
  { intros j Hj. apply (HD (j_of j)). apply in_map. auto. }
  clear HD. revert aes HR HN HD'. induction js as [|j js IH]; intros aes HR HN HD.
  - exists aes. split; [constructor|]. split; [intros k x _; reflexivity|]. split; auto.
  - fcons HR Hj HRs. fcons HA Hacc HAs. cbn [flat_map] in *.
    destruct (nodup_app _ _ _ HN) as (HN1 & HN2 & HN3).
    destruct (HD j (or_introl eq_refl)) as [HDj HDj']. rewrite disjoint_app in HDj, HDj'.
    destruct Hj as [Haj HGj].
    destruct (hides F ps types d HC aes f (j_alpha j) (j_beta j) (j_s0 j) (j_s1 j) (j_keys j) (j_alpha' j) (j_beta' j)
                Haj HGj Hacc HN1 (proj1 HDj')) as (aes1 & G1 & U1 & O1 & B1).
    fold (usesB aes j) in U1, O1. fold (usesB' aes1 j) in U1.
    destruct (rest_kept aes aes1 (usesB aes j) js O1) as [K1 K2].
    { intros i Hi. rewrite Forall_forall in HRs. split; [auto|].
      destruct (HD i (or_intror Hi)) as [D1 D2]. rewrite disjoint_app in D1, D2. split; [apply D1|]. split; [apply D2|].
      intros q Hq Hq'. apply (HN3 q Hq'). apply in_flat_map. eauto. }
    pose proof (generated_shape F ps types d HC aes _ _ _ _ _ f Haj HGj) as SA.
    pose proof (generated_shape F ps types d HC aes _ _ _ _ _ (negb f) Haj HGj) as SB.
    assert (KA : usesA aes1 j = usesA aes j) by exact (proj2 (path_agree aes aes1 f _ _ _ SA O1 (proj1 HDj))).
    assert (KA' : usesA' aes1 j = usesA' aes j) by exact (proj2 (path_agree aes aes1 f _ _ _ SA O1 (proj1 HDj'))).
    destruct (IH HAs aes1) as (aes2 & R2 & O2 & B2 & E2).
    { apply Forall_forall. intros i Hi. apply K1. auto. }
    { rewrite K2. auto. }
    { intros i Hi. destruct (K1 i Hi) as (_ & -> & -> & _). rewrite K2.
      destruct (HD i (or_intror Hi)) as [D1 D2]. rewrite disjoint_app in D1, D2. tauto. }
    rewrite K2 in O2.
    assert (Hacc' : j_alpha' j < P128) by apply Hacc.
    assert (D2 : forall b, disjoint (path_uses aes1 ps d (key_of b (j_keys j)) (j_alpha' j)) (flat_map (usesB aes) js)).
    { intros b. assert (b = f \/ b = negb f) as [-> | ->] by (destruct b, f; auto).
      - fold (usesA' aes1 j). rewrite KA'. apply HDj'.
      - fold (usesB' aes1 j). rewrite U1. intros q Hq Hq'. apply (HN3 q Hq Hq'). }
    exists aes2. split; [|split; [|split]].
    + constructor; [|exact R2]. unfold j_run'. exact (run_agree aes1 aes2 _ _ _ _ _ _ Hacc' G1 O2 D2).
    + intros k x Hx. rewrite O2, O1; auto; intros Hin; apply Hx; apply in_or_app; auto.
    + intros HB HS. fcons HS HS1 HSs. apply B2; auto. apply B1; tauto.
    + constructor.
      * split; [|split].
        -- rewrite <- U1. exact (proj2 (path_agree aes1 aes2 (negb f) _ _ _ SB O2 (D2 (negb f)))).
        -- rewrite <- KA. refine (proj2 (path_agree aes1 aes2 f _ _ _ SA O2 _)). fold (usesA aes1 j). rewrite KA. apply HDj.
        -- rewrite <- KA'. exact (proj2 (path_agree aes1 aes2 f _ _ _ SA O2 (D2 f))).
      * rewrite Forall_forall in E2 |- *. intros i Hi. destruct (E2 i Hi) as (E3 & E4 & E5).
        destruct (K1 i Hi) as (_ & K3 & K4 & K5). rewrite E3, E4, E5, K3, K4, K5. auto.
Qed.

(** * Functions of the cipher only depend on its values *)
Section Ext.
Variables g g' : N -> N -> N.
Hypothesis Hg : forall k x, g k x = g' k x.
Lemma hash_ext : forall k x, hash g k x = hash g' k x.
Proof using Hg. intros. unfold hash. rewrite Hg. reflexivity. Qed.
Lemma walk_ext : forall cs p n, walk g cs p n = walk g' cs p n.
Proof using Hg.
  induction cs as [|c cs IH]; intros p n; cbn [walk]; auto. rewrite IH. unfold step. rewrite hash_ext. reflexivity.
Qed.
Lemma generate_next_ext : forall i alpha beta st, generate_next g d i alpha beta st = generate_next g' d i alpha beta st.
Proof using Hg.
  intros i alpha beta st. unfold generate_next. rewrite !prg_evaluate_hash. cbn [map]. rewrite !hash_ext.
  destruct (tree_to_hierarchy d (i - 1)) as [h|]; auto.
  destruct (at_or_ub beta h) as [b| | |]; cbn [bind]; auto.
  rewrite (cvc_agree g' g); auto; intros; apply hash_ext.
Qed.
Lemma generate_loop_ext : forall n i alpha beta st, generate_loop g d n i alpha beta st = generate_loop g' d n i alpha beta st.
Proof using Hg.
  induction n as [|n IH]; intros i alpha beta st; cbn [generate_loop]; auto. rewrite generate_next_ext.
  destruct (generate_next g' d i alpha beta st) as [[st' cw]| | |]; cbn [bind]; auto. rewrite IH. reflexivity.
Qed.
Lemma generate_keys_ext : forall alpha beta s0 s1, generate_keys g d alpha beta s0 s1 = generate_keys g' d alpha beta s0 s1.
Proof using Hg.
  intros alpha beta s0 s1. unfold generate_keys. rewrite generate_loop_ext.
  destruct (check _ _); cbn [bind]; auto. destruct (validate_betas _ _); cbn [bind]; auto.
  destruct (check _ _); cbn [bind]; auto. destruct (generate_loop g' d _ _ _ _ _) as [[st cws]| | |]; cbn [bind]; auto.
  destruct (at_or_ub beta _); cbn [bind]; auto. rewrite (cvc_agree g' g); auto; intros; apply hash_ext.
Qed.
Lemma node_bytes_ext : forall h s, node_bytes g d h s = node_bytes g' d h s.
Proof using Hg. intros h s. unfold node_bytes. f_equal. apply map_ext. intros j. apply hash_ext. Qed.
Lemma anode_ext : forall b cws s alpha i, anode d b cws s alpha g i = anode d b cws s alpha g' i.
Proof using Hg. intros. apply walk_ext. Qed.
Lemma new_bytes_ext : forall b key alpha beta sb sb' h, (forall i, sb i = sb' i) ->
  new_bytes g d b key alpha beta sb h = new_bytes g' d b key alpha beta sb' h.
Proof using Hg.
  intros b key alpha beta sb sb' h Hs. unfold new_bytes, target_elems. rewrite anode_ext, !node_bytes_ext, Hs. reflexivity.
Qed.
Lemma exchange_ext : forall b s0 s1 alpha beta alpha' beta' k x,
  exchange ps d b s0 s1 alpha beta alpha' beta' g k x = exchange ps d b s0 s1 alpha beta alpha' beta' g' k x.
Proof using Hg.
  intros b s0 s1 alpha beta alpha' beta' k x. unfold exchange. rewrite generate_keys_ext.
  destruct (generate_keys g' d alpha beta s0 s1) as [ks| | |]; auto.
  unfold reprogram, aes', program.
  assert (Hs : forall i, other_seed ps g b ks alpha i = other_seed ps g' b ks alpha i).
  { intros i. unfold other_seed, path_node. rewrite walk_ext. reflexivity. }
  replace (tbl g d b (k_cws (key_of b ks)) (key_seed (key_of b ks)) (other_seed ps g b ks alpha) alpha'
             (new_bytes g d b (key_of b ks) alpha' beta' (other_seed ps g b ks alpha)))
    with (tbl g' d b (k_cws (key_of b ks)) (key_seed (key_of b ks)) (other_seed ps g' b ks alpha) alpha'
             (new_bytes g' d b (key_of b ks) alpha' beta' (other_seed ps g' b ks alpha))).
  - rewrite Hg. reflexivity.
  - symmetry. unfold tbl. f_equal.
    + apply flat_map_ext. intros i. unfold need_l, need_r. rewrite !anode_ext, !hash_ext, !Hs. reflexivity.
    + apply flat_map_ext. intros h. rewrite Hs, (new_bytes_ext b _ alpha' beta' _ _ h Hs). reflexivity.
Qed.
End Ext.

(** * The exchange for several pairs *)
Definition x_one (j : job) : (N -> N -> N) -> N -> N -> N :=
  exchange ps d f (j_s0 j) (j_s1 j) (j_alpha j) (j_beta j) (j_alpha' j) (j_beta' j).
Fixpoint exchange_all (js : list job) (aes : N -> N -> N) : N -> N -> N :=
  match js with
  | [] => aes
  | j :: js' => exchange_all js' (x_one j aes)
  end.
Fixpoint undo_all (js : list job) (aes : N -> N -> N) : N -> N -> N :=
  match js with
  | [] => aes
  | j :: js' => x_one (j_swap j) (undo_all js' aes)
  end.
Hypothesis Hdir : no_int_mod_n ps.

Theorem exchange_all_ok : forall js aes, Forall (j_run aes) js -> Forall (fun j => accepted d (j_alpha' j) (j_beta' j)) js ->
  all_apart aes ps d f (map j_of js) -> on_blocks aes -> Forall (fun j => j_s0 j < 2 ^ 128 /\ j_s1 j < 2 ^ 128) js ->
  let aes1 := exchange_all js aes in
  Forall (j_run' aes1) js /\ agree_off (others_uses aes ps d f (map j_of js)) aes aes1 /\ on_blocks aes1 /\
    Forall (fun j => usesB' aes1 j = usesB aes j /\ usesA aes1 j = usesA aes j /\ usesA' aes1 j = usesA' aes j) js /\
    forall k x, undo_all js aes1 k x = aes k x.
Proof using HC Hdir.
  intros js aes HR HA [HN HD] HB HS. rewrite others_uses_eq in *.
  assert (HD' : forall j, In j js -> disjoint (usesA aes j) (flat_map (usesB aes) js) /\ disjoint (usesA' aes j) (flat_map (usesB aes) js)).
  { intros j Hj. apply (HD (j_of j)). apply in_map. auto. }
  clear HD. revert aes HR HN HD' HB. induction js as [|j js IH]; intros aes HR HN HD HB.
  - cbn [exchange_all undo_all]. split; [constructor|]. split; [intros k x _; reflexivity|]. split; auto.
  - fcons HR Hj HRs. fcons HA Hacc HAs. fcons HS Hs HSs. cbn [flat_map exchange_all undo_all] in *.
    destruct (nodup_app _ _ _ HN) as (HN1 & HN2 & HN3).
    destruct (HD j (or_introl eq_refl)) as [HDj HDj']. rewrite disjoint_app in HDj, HDj'.
    destruct Hj as [Haj HGj].
    destruct (exchange_ok F ps types d HC Hdir f (j_s0 j) (j_s1 j) (j_alpha j) (j_beta j) (j_alpha' j) (j_beta' j) aes (j_keys j)
                Haj Hacc (proj1 Hs) (proj2 Hs) HB HGj (conj HN1 (conj (proj1 HDj) (proj1 HDj')))) as (B1 & G1 & _ & U1 & O1 & Y1).
    set (aes1 := x_one j aes) in *. change (exchange ps d f (j_s0 j) (j_s1 j) (j_alpha j) (j_beta j) (j_alpha' j) (j_beta' j) aes) with aes1 in *.
    fold (usesB aes j) in U1, O1. fold (usesB' aes1 j) in U1.
    destruct (rest_kept aes aes1 (usesB aes j) js O1) as [K1 K2].
    { intros i Hi. rewrite Forall_forall in HRs. split; [auto|].
      destruct (HD i (or_intror Hi)) as [D1 D2]. rewrite disjoint_app in D1, D2. split; [apply D1|]. split; [apply D2|].
      intros q Hq Hq'. apply (HN3 q Hq'). apply in_flat_map. eauto. }
    pose proof (generated_shape F ps types d HC aes _ _ _ _ _ f Haj HGj) as SA.
    pose proof (generated_shape F ps types d HC aes _ _ _ _ _ (negb f) Haj HGj) as SB.
    assert (KA : usesA aes1 j = usesA aes j) by exact (proj2 (path_agree aes aes1 f _ _ _ SA O1 (proj1 HDj))).
    assert (KA' : usesA' aes1 j = usesA' aes j) by exact (proj2 (path_agree aes aes1 f _ _ _ SA O1 (proj1 HDj'))).
    destruct (IH HAs HSs aes1) as (R2 & O2 & B2 & E2 & Y2).
    { apply Forall_forall. intros i Hi. apply K1. auto. }
    { rewrite K2. auto. }
    { intros i Hi. destruct (K1 i Hi) as (_ & -> & -> & _). rewrite K2.
      destruct (HD i (or_intror Hi)) as [D1 D2]. rewrite disjoint_app in D1, D2. tauto. }
    { exact B1. }
    rewrite K2 in O2. set (aes2 := exchange_all js aes1) in *.
    assert (Hacc' : j_alpha' j < P128) by apply Hacc.
    assert (D2 : forall b, disjoint (path_uses aes1 ps d (key_of b (j_keys j)) (j_alpha' j)) (flat_map (usesB aes) js)).
    { intros b. assert (b = f \/ b = negb f) as [-> | ->] by (destruct b, f; auto).
      - fold (usesA' aes1 j). rewrite KA'. apply HDj'.
      - fold (usesB' aes1 j). rewrite U1. intros q Hq Hq'. apply (HN3 q Hq Hq'). }
    split; [|split; [|split; [exact B2|split]]].
    + constructor; [|exact R2]. unfold j_run'. exact (run_agree aes1 aes2 _ _ _ _ _ _ Hacc' G1 O2 D2).
    + intros k x Hx. rewrite O2, O1; auto; intros Hin; apply Hx; apply in_or_app; auto.
    + constructor.
      * split; [|split].
        -- rewrite <- U1. exact (proj2 (path_agree aes1 aes2 (negb f) _ _ _ SB O2 (D2 (negb f)))).
        -- rewrite <- KA. refine (proj2 (path_agree aes1 aes2 f _ _ _ SA O2 _)). fold (usesA aes1 j). rewrite KA. apply HDj.
        -- rewrite <- KA'. exact (proj2 (path_agree aes1 aes2 f _ _ _ SA O2 (D2 f))).
      * rewrite Forall_forall in E2 |- *. intros i Hi. destruct (E2 i Hi) as (E3 & E4 & E5).
        destruct (K1 i Hi) as (_ & K3 & K4 & K5). rewrite E3, E4, E5, K3, K4, K5. auto.
    + intros k x. unfold x_one. rewrite (exchange_ext _ aes1 Y2). apply Y1.
Qed.
End Batch.
