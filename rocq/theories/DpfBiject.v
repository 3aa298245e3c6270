(** What a single key reveals: the exchange of alpha and beta is a bijection on block
    ciphers (for types without IntModN). *)
From Coq Require Import List NArith ZArith Lia Bool ZifyBool ZifyNat ZifyN.
From Verif Require Import Base ListUtil ValueTypesModel ValueTypesSpec ValueTypesProofs
  ConvProofs BitsProofs TypeProofs DpfModel DpfTree DpfWf DpfGen DpfPoint DpfSpec DpfHist DpfCreate DpfFacts
  ConvSurj DpfPrivacySpec DpfPrivacy DpfShape DpfHide.
Import ListNotations.
Ltac Zify.zify_post_hook ::= Z.div_mod_to_equations.
Open Scope N_scope.

Lemma node_bytes_ok : forall aes d h s, bytes_ok (node_bytes aes d h s).
Proof.
  intros aes d h s. unfold node_bytes, blocks_to_bytes, bytes_ok. apply Forall_forall. intros x Hx.
  apply in_concat in Hx. destruct Hx as (l & Hl & Hx). apply in_map_iff in Hl. destruct Hl as (y & <- & _).
  pose proof (le_encode_bytes 16 y) as HB. unfold bytes_ok in HB. rewrite Forall_forall in HB. auto.
Qed.
Lemma block_at_blocks : forall l j v, nth_error l j = Some v -> v < 2 ^ 128 -> block_at (blocks_to_bytes l) j = v.
Proof.
  induction l as [|a l IH]; intros j v Hj Hv; [destruct j; discriminate|].
  unfold blocks_to_bytes in *. cbn [map concat]. destruct j as [|j].
  - injection Hj as ->. unfold block_at. replace (16 * 0)%nat with 0%nat by lia. rewrite skipn_O.
    rewrite firstn_app, le_encode_length, Nat.sub_diag, firstn_O, app_nil_r, firstn_all2 by (rewrite le_encode_length; lia).
    rewrite le_decode_encode. apply N.mod_small. exact Hv.
  - cbn [nth_error] in Hj. rewrite <- (IH j v Hj Hv). unfold block_at. f_equal.
    replace (16 * S j)%nat with (16 + 16 * j)%nat by lia. rewrite <- skipn_skipn', skipn_app, le_encode_length, Nat.sub_diag, (skipn_all2 (le_encode 16 a)) by (rewrite le_encode_length; lia). reflexivity.
Qed.

(** The elements that the other party's seed must expand to at level [h]. *)
Definition target_elems (aes : N -> N -> N) (d : dpf) (f : bool) (key : dkey) (alpha : N) (beta : list pvalue) (h : nat)
  : option (cty * list cval) :=
  match nth_error (d_params d) h, nth_error beta h with
  | Some p, Some b =>
      match get_value_correction_function d (p_type p) with
      | Ok T =>
          let A := anode d f (k_cws key) (key_seed key) alpha aes (h2t d h) in
          match from_value T b, convert_bytes T (node_bytes aes d h (fst A)),
                values_to_array T (kv d (k_cws key) (k_last key) h) with
          | Ok bT, Ok ea, Ok corrs =>
              let idx := domain_to_block_index d (N.shiftr alpha (N.of_nat (ld_last d - ld d h))) h in
              let bit1 := if f then snd A else negb (snd A) in
              Some (T, if f then solve_first T corrs ea idx bT bit1 else solve_second T corrs ea idx bT bit1)
          | _, _, _ => None
          end
      | _ => None
      end
  | _, _ => None
  end.
(** The bytes it expands to now, with the elements replaced by those. *)
Definition new_bytes (aes : N -> N -> N) (d : dpf) (f : bool) (key : dkey) (alpha : N) (beta : list pvalue)
    (sb : nat -> N) (h : nat) : bytes :=
  match target_elems aes d f key alpha beta h with
  | Some (T, es) => reencode T (node_bytes aes d h (sb (h2t d h))) es
  | None => []
  end.

Lemma target_elems_eq : forall aes d f key alpha beta h es,
  target aes d f (k_cws key) (k_last key) (key_seed key) alpha beta h es ->
  exists T, target_elems aes d f key alpha beta h = Some (T, es) /\ level_type d h T /\
    length es = elements_per_block T /\ Forall (fun v => wt T v = true) es.
Proof.
  intros aes d f key alpha beta h es (p & b & T & bT & ea & corrs & Hp & Hb & HT & HL & Hf & Hw & Hc & HLa & HWa & HLc & HWc & Hkv & Hes).
  pose proof (proj1 HL) as Hok.
  exists T. unfold target_elems. rewrite Hp, Hb, HT. cbv zeta. rewrite Hf, Hc, Hkv, values_to_array_to_value by auto.
  split; [rewrite Hes; reflexivity|]. split; auto. rewrite Hes. cbv zeta. clear Hes.
  destruct f; [apply solve_first_ok|apply solve_second_ok]; auto.
Qed.

Section Biject.
Variables (F : fops) (ps : list param) (types : list cty) (d : dpf).
Hypothesis HC : created F ps types d.
Hypothesis Hdir : no_int_mod_n ps.

Lemma level_direct : forall h T, level_type d h T -> is_direct T = true.
Proof using HC Hdir. intros h T HT. eapply Hdir. eapply level_type_has; eauto. Qed.

(** The block cipher under which [ks] are the keys for alpha' and beta'. *)
Definition reprogram (f : bool) (ks : dkey * dkey) (alpha alpha' : N) (beta' : list pvalue) (aes : N -> N -> N)
  : N -> N -> N :=
  let kA := key_of f ks in
  let sb := other_seed ps aes f ks alpha in
  aes' aes d f (k_cws kA) (key_seed kA) sb alpha' (new_bytes aes d f kA alpha' beta' sb).
Definition exchange (f : bool) (s0 s1 : N) (alpha : N) (beta : list pvalue) (alpha' : N) (beta' : list pvalue)
    (aes : N -> N -> N) : N -> N -> N :=
  match generate_keys aes d alpha beta s0 s1 with
  | Ok ks => reprogram f ks alpha alpha' beta' aes
  | _ => aes
  end.

Lemma shape_target : forall aes f key alpha beta h, key_shape ps d (party_of f) key -> accepted d alpha beta ->
  (h < nlevels d)%nat -> exists es,
  target aes d f (k_cws key) (k_last key) (key_seed key) alpha beta h es.
Proof using HC.
  intros aes f key alpha beta h HS Hacc Hh.
  destruct (nb_exists aes d (hide_wf F ps types d HC) f (k_cws key) (k_last key) (key_seed key) alpha beta
    (shape_values F ps types d HC _ _ HS) Hacc h Hh) as (b & _ & _ & es & _ & _ & HT & _). exists es. exact HT.
Qed.
Lemma new_bytes_ok : forall aes f key alpha beta sb h, key_shape ps d (party_of f) key -> accepted d alpha beta ->
  (h < nlevels d)%nat ->
  nb_ok aes d f (k_cws key) (k_last key) (key_seed key) alpha beta h (new_bytes aes d f key alpha beta sb h).
Proof using HC Hdir.
  intros aes f key alpha beta sb h HS Hacc Hh.
  destruct (shape_target aes f key alpha beta h HS Hacc Hh) as (es & Htg).
  destruct (target_elems_eq _ _ _ _ _ _ _ _ Htg) as (T & HE & HT & HL & HW).
  unfold new_bytes. rewrite HE. pose proof (proj1 HT) as Hok. pose proof (level_direct h T HT) as Hd.
  destruct (accepted_level d alpha beta (hide_wf F ps types d HC) Hacc) as (_ & _ & _ & _ & HH).
  destruct (HH h Hh) as (p & b & T' & bT & Hp & Hb & HGt & HT' & _ & _ & Hen). clear HH.
  assert (T' = T) as ->.
  { destruct HT as (_ & q & Hq & Hd1). destruct HT' as (_ & q' & Hq' & Hd2). eapply denotes_fun; eauto. congruence. }
  unfold enough_bytes in Hen. rewrite Hd in Hen.
  split; [|split].
  - rewrite reencode_length; auto; rewrite node_bytes_length; auto. lia.
  - apply reencode_bytes_ok; auto. apply node_bytes_ok.
  - exists es, p, T. split; auto. split; auto. split; auto. apply convert_reencode; auto.
Qed.

Section One.
Variable aes : N -> N -> N.
Variables (f : bool) (alpha : N) (beta : list pvalue) (s0 s1 : N) (ks : dkey * dkey) (alpha' : N) (beta' : list pvalue).
Hypothesis Ha : alpha < P128.
Hypothesis HG : generate_keys aes d alpha beta s0 s1 = Ok ks.
Hypothesis Hacc : accepted d alpha' beta'.
Hypothesis Hap : apart aes ps d f ks alpha alpha'.
Let kA := key_of f ks.
Let kB := key_of (negb f) ks.
Let sb := other_seed ps aes f ks alpha.
Let aes1 := reprogram f ks alpha alpha' beta' aes.

Lemma one_keys : generate_keys aes1 d alpha' beta' s0 s1 = Ok ks /\
  (forall i, (i <= n_cws d)%nat -> other_seed ps aes1 f ks alpha' i = sb i) /\
  path_uses aes1 ps d kB alpha' = path_uses aes ps d kB alpha /\
  agree_off (path_uses aes ps d kB alpha) aes aes1 /\
  (on_blocks aes -> s0 < 2 ^ 128 -> s1 < 2 ^ 128 -> on_blocks aes1).
Proof using HC Hdir Ha HG Hacc Hap.
  destruct Hap as (HND & _ & HD).
  apply (transfer_with F ps types d HC aes f alpha beta s0 s1 ks alpha' beta' Ha HG Hacc HND HD).
  intros h Hh. apply new_bytes_ok; auto. eapply generated_shape; eauto.
Qed.
Lemma one_path : forall a, disjoint (path_uses aes ps d kA a) (path_uses aes ps d kB alpha) ->
  (forall i, (i <= n_cws d)%nat -> path_node aes1 (last_ld ps) kA a i = path_node aes (last_ld ps) kA a i) /\
  path_uses aes1 ps d kA a = path_uses aes ps d kA a.
Proof using HC Hdir Ha HG Hacc Hap.
  intros a HD. destruct one_keys as (_ & _ & _ & HO & _).
  pose proof (generated_shape F ps types d HC aes _ _ _ _ ks f Ha HG) as HS. fold kA in HS.
  assert (HN : forall i, (i <= n_cws d)%nat -> path_node aes1 (last_ld ps) kA a i = path_node aes (last_ld ps) kA a i).
  { intros i Hi. rewrite !(path_node_anode F ps types d HC _ f) by (apply (ks_party _ _ _ _ HS)).
    eapply (anode_agree F ps types d HC); eauto; [apply (ks_cws _ _ _ _ HS)|].
    unfold path_uses at 1 in HD. rewrite (seed_uses_ext F ps types d HC _ (fun i => fst (anode d f (k_cws kA) (key_seed kA) a aes i))) in HD.
    - exact HD.
    - intros j Hj. rewrite (path_node_anode F ps types d HC _ f) by (apply (ks_party _ _ _ _ HS)). reflexivity. }
  split; auto. unfold path_uses. apply (seed_uses_ext F ps types d HC). intros i Hi. rewrite HN by auto. reflexivity.
Qed.
Lemma one_apart : apart aes1 ps d f ks alpha' alpha.
Proof using HC Hdir Ha HG Hacc Hap.
  destruct one_keys as (_ & _ & HU & _). pose proof Hap as (HND & HD & HD').
  unfold apart. fold kA kB. rewrite HU, (proj2 (one_path alpha HD)), (proj2 (one_path alpha' HD')).
  split; [exact HND|]. split; [exact HD'|exact HD].
Qed.

(** Going back. *)
Lemma one_back : on_blocks aes -> forall k x, reprogram f ks alpha' alpha beta aes1 k x = aes k x.
Proof using HC Hdir Ha HG Hacc Hap.
  intros HA k x. destruct one_keys as (HG1 & Hsb & HU & HO & _). pose proof Hap as (HND & HD & HD').
  pose proof (generated_shape F ps types d HC aes _ _ _ _ ks f Ha HG) as HS. fold kA in HS.
  pose proof (run_other F ps types d HC aes _ _ _ _ ks f Ha HG) as (HO1 & HO2 & HO3 & HO4 & _ & _ & _ & _ & HO9).
  fold kA in HO1, HO2, HO3, HO4. fold sb in HO9.
  assert (Hks : key_seed kA = seed_of s0 s1 f) by (unfold key_seed; rewrite HO1; reflexivity).
  assert (HLc : length (k_cws (fst ks)) = n_cws d) by (rewrite <- HO2; apply (ks_cws _ _ _ _ HS)).
  assert (HG' : generate_keys aes d alpha beta s0 s1 = Ok (fst ks, snd ks)) by (rewrite HG; destruct ks; reflexivity).
  set (sb1 := other_seed ps aes1 f ks alpha').
  assert (Hsb1 : forall i, (i <= n_cws d)%nat -> sb1 i = sb i) by exact Hsb.
  assert (HacA : accepted d alpha beta) by (eapply run_keys; eauto).
  (* party A's nodes on the path of alpha *)
  assert (HNA : forall i, (i <= n_cws d)%nat -> anode d f (k_cws kA) (key_seed kA) alpha aes1 i =
                                               anode d f (k_cws kA) (key_seed kA) alpha aes i).
  { intros i Hi. rewrite <- !(path_node_anode F ps types d HC _ f) by auto. apply one_path; auto. }
  assert (HHA : forall q, In q (seed_uses d (fun i => fst (anode d f (k_cws kA) (key_seed kA) alpha aes i))) ->
    aes1 (fst q) (snd q) = aes (fst q) (snd q)).
  { intros [k' x'] Hq. cbn [fst snd]. apply HO. apply HD. unfold path_uses.
    rewrite (seed_uses_ext F ps types d HC _ (fun i => fst (anode d f (k_cws kA) (key_seed kA) alpha aes i))); auto.
    intros j Hj. rewrite (path_node_anode F ps types d HC _ f) by auto. reflexivity. }
  set (nb1 := new_bytes aes1 d f kA alpha beta sb1).
  set (T1 := tbl aes1 d f (k_cws kA) (key_seed kA) sb1 alpha nb1).
  assert (HTu : map fst T1 = path_uses aes ps d kB alpha).
  { unfold T1. rewrite tbl_uses. unfold path_uses. apply (seed_uses_ext F ps types d HC). exact Hsb1. }
  assert (HE : forall k' x' v, In ((k', x'), v) T1 -> N.lxor v x' = aes k' x').
  { assert (HX : forall k' y, N.lxor (hash aes k' y) (sigma y) = aes k' (sigma y)).
    { intros. unfold hash. rewrite N.lxor_assoc, N.lxor_nilpotent, N.lxor_0_r. reflexivity. }
    intros k' x' v Hin. unfold T1, tbl in Hin. apply in_app_or in Hin. destruct Hin as [Hin|Hin].
    - apply in_flat_map in Hin. destruct Hin as (i & Hi & Hin). apply in_seq in Hi. cbn [Nat.add] in Hi.
      assert (HHs : forall k'', k'' = kPrgKeyLeft \/ k'' = kPrgKeyRight ->
        hash aes1 k'' (fst (anode d f (k_cws kA) (key_seed kA) alpha aes i)) =
        hash aes k'' (fst (anode d f (k_cws kA) (key_seed kA) alpha aes i))).
      { intros k'' Hk. unfold hash. f_equal. apply (HHA (k'', sigma (fst (anode d f (k_cws kA) (key_seed kA) alpha aes i)))).
        apply in_or_app. left. apply in_flat_map. exists i.
        split; [apply in_seq; unfold n_cws in Hi; lia|]. destruct Hk as [-> | ->]; [left|right; left]; reflexivity. }
      assert (HR : hash aes kPrgKeyLeft (sb i) = need_l aes1 d f (k_cws kA) (key_seed kA) sb1 alpha i /\
                   hash aes kPrgKeyRight (sb i) = need_r aes1 d f (k_cws kA) (key_seed kA) sb1 alpha i).
      { unfold need_l, need_r. rewrite HNA by lia. rewrite !HHs by auto. rewrite (Hsb1 (S i)) by lia.
        rewrite Hks, HO2, (HO9 i), (HO9 (S i)).
        apply (run_need F ps types d HC aes _ _ _ _ _ _ Ha HG' f i). lia. }
      rewrite (Hsb1 i) in Hin by lia.
      destruct Hin as [Hin|[Hin|[]]]; inv Hin; [rewrite <- (proj1 HR)|rewrite <- (proj2 HR)]; apply HX.
    - apply in_flat_map in Hin. destruct Hin as (h & Hh & Hin). apply in_seq in Hh. cbn [Nat.add] in Hh.
      apply in_map_iff in Hin. destruct Hin as (j & Hin & Hj). apply in_seq in Hj. cbn [Nat.add] in Hj.
      assert (Hhn : (h < nlevels d)%nat) by lia. clear Hh.
      pose proof (h2t_n F ps types d HC h Hhn) as Hle. rewrite (Hsb1 _ Hle) in Hin.
      assert (Hnb : nb1 h = node_bytes aes d h (sb (h2t d h))).
      { pose proof (run_values F ps types d HC aes _ _ _ _ _ _ Ha HG' f h Hhn) as
          (p & b & T & bT & corrs & Hp & Hb & HGt & HT & Hen & Hf & Hw & Hkv & HLcr & HWcr & HV).
        cbv zeta in HV. rewrite <- (HO9 (h2t d h)), <- Hks, <- HO2 in HV. rewrite <- HO2, <- HO3 in Hkv.
        destruct HV as (ea & eb & Hea & Heb & HLa & HWa & HLb & HWb & Hsol).
        pose proof (proj1 HT) as Hok. pose proof (level_direct h T HT) as Hd.
        unfold nb1, new_bytes, target_elems. rewrite Hp, Hb, HGt. cbv zeta. rewrite (HNA _ Hle), Hf, Hkv.
        rewrite values_to_array_to_value by auto.
        replace (node_bytes aes1 d h (fst (anode d f (k_cws kA) (key_seed kA) alpha aes (h2t d h))))
          with (node_bytes aes d h (fst (anode d f (k_cws kA) (key_seed kA) alpha aes (h2t d h)))).
        2:{ unfold node_bytes. f_equal. apply map_ext_in. intros m Hm. unfold hash. f_equal. symmetry.
            apply (HHA (kPrgKeyValue, sigma (w128 (fst (anode d f (k_cws kA) (key_seed kA) alpha aes (h2t d h)) + N.of_nat m)))).
            apply in_or_app. right. apply in_flat_map. exists h. split; [apply in_seq; unfold nlevels in Hhn; lia|].
            apply in_map_iff. exists m. auto. }
        rewrite Hea, <- Hsol. rewrite (Hsb1 _ Hle).
        (* what B's seed expands to under aes1 *)
        assert (HNB : node_bytes aes1 d h (sb (h2t d h)) = new_bytes aes d f kA alpha' beta' sb h).
        { destruct (new_bytes_ok aes f kA alpha' beta' sb h HS Hacc Hhn) as (HNL & HNO & _).
          unfold node_bytes. etransitivity; [|apply (blocks_at _ _ HNL HNO)]. f_equal.
          apply map_ext_in. intros m Hm. apply program_hash_in.
          - rewrite tbl_uses. exact HND.
          - apply in_or_app. right. apply in_flat_map. exists h. split; [apply in_seq; lia|].
            apply in_map_iff. exists m. auto. }
        rewrite HNB. destruct (shape_target aes f kA alpha' beta' h HS Hacc Hhn) as (es' & Htg).
        destruct (target_elems_eq _ _ _ _ _ _ _ _ Htg) as (T' & HE' & HT' & HL' & HW').
        assert (T' = T) as ->.
        { destruct HT as (_ & q & Hq & Hd1). destruct HT' as (_ & q' & Hq' & Hd2). eapply denotes_fun; eauto. congruence. }
        unfold new_bytes. rewrite HE', reencode_twice by (auto; congruence).
        apply reencode_same; auto. apply node_bytes_ok. }
      inv Hin. rewrite Hnb. unfold node_bytes.
      rewrite (block_at_blocks _ j (hash aes kPrgKeyValue (w128 (sb (h2t d h) + N.of_nat j)))); [apply HX| |apply hash_bound; auto].
      rewrite nth_error_map, nth_error_seq by lia. reflexivity. }
  unfold reprogram. fold kA sb1 nb1. unfold aes'. fold T1.
  destruct (in_dec (fun a b : N * N => ltac:(decide equality; apply N.eq_dec)) (k, x) (map fst T1)) as [Hin|Hout].
  - apply in_map_iff in Hin. destruct Hin as ([[k' x'] v] & Hq & Hin). cbn [fst] in Hq. inv Hq.
    rewrite (program_in _ _ _ _ v); auto. rewrite HTu. exact HND.
  - rewrite program_out by exact Hout. apply HO. rewrite <- HTu. exact Hout.
Qed.
End One.

Theorem exchange_ok : forall f s0 s1 alpha beta alpha' beta' aes ks, alpha < P128 -> accepted d alpha' beta' ->
  s0 < 2 ^ 128 -> s1 < 2 ^ 128 -> on_blocks aes ->
  generate_keys aes d alpha beta s0 s1 = Ok ks -> apart aes ps d f ks alpha alpha' ->
  let aes1 := exchange f s0 s1 alpha beta alpha' beta' aes in
  on_blocks aes1 /\ generate_keys aes1 d alpha' beta' s0 s1 = Ok ks /\ apart aes1 ps d f ks alpha' alpha /\
  path_uses aes1 ps d (key_of (negb f) ks) alpha' = path_uses aes ps d (key_of (negb f) ks) alpha /\
  agree_off (path_uses aes ps d (key_of (negb f) ks) alpha) aes aes1 /\
  forall k x, exchange f s0 s1 alpha' beta' alpha beta aes1 k x = aes k x.
Proof using HC Hdir.
  intros f s0 s1 alpha beta alpha' beta' aes ks Ha Hacc H0 H1 HA HG Hap aes1.
  assert (HE : aes1 = reprogram f ks alpha alpha' beta' aes) by (unfold aes1, exchange; rewrite HG; reflexivity).
  destruct (one_keys aes f alpha beta s0 s1 ks alpha' beta' Ha HG Hacc Hap) as (K1 & _ & K3 & K4 & K5).
  rewrite <- HE in *. split; [auto|]. split; [auto|].
  split; [rewrite HE; eapply one_apart; eauto|]. split; [auto|]. split; [auto|].
  intros k x. unfold exchange. rewrite K1, HE. eapply one_back; eauto.
Qed.
End Biject.

(** Acceptance does not depend on the cipher or the seeds. *)
Lemma accepted_all : forall F ps types d alpha beta, created F ps types d -> accepted d alpha beta ->
  forall aes s0 s1, exists ks, generate_keys aes d alpha beta s0 s1 = Ok ks.
Proof.
  intros F ps types d alpha beta HC Hacc aes s0 s1. pose proof (proj1 (created_wf _ _ _ _ HC)) as W.
  destruct (accepted_level d alpha beta W Hacc) as (_ & HL & HV & Ha & HH).
  destruct (DpfCreate.generate_keys_ok aes d W) with (alpha := alpha) (beta := beta) (s0 := s0) (s1 := s1) as (k0 & k1 & HG);
    [| | | | |exists (k0, k1); exact HG]; auto.
  - intros h p Hp. assert (Hh : (h < nlevels d)%nat) by (unfold nlevels; apply nth_error_Some; congruence).
    destruct (HH h Hh) as (p' & b & T & bT & Hp' & _ & HG & _ & _ & _ & He). assert (p' = p) as -> by congruence.
    exists T. unfold get_value_correction_function in HG. destruct (find _ (d_types d)) as [t|] eqn:E; inv HG.
    apply find_some in E. destruct E as [E1 E2]. apply ptype_eqb_eq in E2. auto.
  - intros h b T Hb HT. assert (Hh : (h < nlevels d)%nat) by (rewrite <- HL; apply nth_error_Some; congruence).
    destruct (HH h Hh) as (p' & b' & T' & bT & Hp' & Hb' & _ & HT' & Hf & _). assert (b' = b) as -> by congruence.
    assert (T' = T) as ->; [|eauto].
    destruct HT as (_ & q & Hq & Hd1). destruct HT' as (_ & q' & Hq' & Hd2). eapply denotes_fun; eauto. congruence.
Qed.
