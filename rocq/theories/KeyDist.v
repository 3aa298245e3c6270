(** The distribution of a whole key: proofs. *)
From Coq Require Import List NArith ZArith Lia Bool ZifyBool ZifyNat ZifyN.
From Verif Require Import Base ListUtil ValueTypesModel ValueTypesSpec ValueTypesProofs ConvProofs ConvSurj SampleSpec SampleJoint
  BitsProofs TypeProofs DpfModel DpfTree DpfWf DpfGen DpfPoint DpfSpec DpfHist DpfCreate DpfFacts
  DpfPrivacySpec DpfPrivacy DpfShape DpfHide DpfBiject CorrectionSpec CorrectionProofs KeyDistSpec KeyDistProofs.
Import ListNotations.
Ltac Zify.zify_post_hook ::= Z.div_mod_to_equations.
Open Scope N_scope.

(** [key] with the values [vs]. *)
Definition value_at (d : dpf) (vs : list (list pvalue)) (i : nat) : list pvalue :=
  match tree_to_hierarchy d i with Some h => nth h vs [] | None => [] end.
Fixpoint put_values (d : dpf) (vs : list (list pvalue)) (i : nat) (cws : list cword) : list cword :=
  match cws with
  | [] => []
  | cw :: cws' =>
      {| cw_seed := cw_seed cw; cw_left := cw_left cw; cw_right := cw_right cw; cw_values := value_at d vs i |}
      :: put_values d vs (S i) cws'
  end.
Definition put (d : dpf) (key : dkey) (vs : list (list pvalue)) : dkey :=
  {| k_seed := k_seed key; k_cws := put_values d vs 0 (k_cws key); k_party := k_party key; k_last := nth (nlevels d - 1) vs [] |}.

Lemma put_values_nth : forall d vs cws i j, nth_error (put_values d vs i cws) j =
  match nth_error cws j with
  | Some cw => Some {| cw_seed := cw_seed cw; cw_left := cw_left cw; cw_right := cw_right cw; cw_values := value_at d vs (i + j) |}
  | None => None
  end.
Proof.
  intros d vs. induction cws as [|cw cws IH]; intros i j; [destruct j; reflexivity|]. destruct j as [|j]; cbn [put_values nth_error].
  - rewrite Nat.add_0_r. reflexivity.
  - rewrite IH. replace (S i + j)%nat with (i + S j)%nat by lia. reflexivity.
Qed.
Lemma put_values_length : forall d vs cws i, length (put_values d vs i cws) = length cws.
Proof. intros d vs. induction cws as [|cw cws IH]; intros i; cbn [put_values length]; auto. Qed.
Lemma put_values_map : forall B (g : cword -> B) d vs,
  (forall cw v, g {| cw_seed := cw_seed cw; cw_left := cw_left cw; cw_right := cw_right cw; cw_values := v |} = g cw) ->
  forall cws i, map g (put_values d vs i cws) = map g cws.
Proof. intros B g d vs Hg. induction cws as [|cw cws IH]; intros i; cbn [put_values map]; auto. rewrite Hg, IH. reflexivity. Qed.
Lemma put_same_tree : forall d key vs, same_tree (put d key vs) key.
Proof. intros d key vs. split; [reflexivity|]. split; [reflexivity|]. cbn [put k_cws]. apply put_values_map. reflexivity. Qed.

(** Two keys with the same tree. *)
Section SameTree.
Variables key key' : dkey.
Hypothesis Hst : same_tree key' key.
Lemma st_corr : map corr_of (k_cws key') = map corr_of (k_cws key).
Proof using Hst.
  destruct Hst as (_ & _ & H).
  assert (HX : forall cws, map corr_of cws = map (fun t => (fst (fst t), (snd (fst t), snd t)))
    (map (fun cw => (cw_seed cw, cw_left cw, cw_right cw)) cws)).
  { intros cws. rewrite map_map. apply map_ext. intros cw. reflexivity. }
  rewrite !HX, H. reflexivity.
Qed.
Lemma st_seed : key_seed key' = key_seed key.
Proof using Hst. destruct Hst as (H & _). unfold key_seed. rewrite H. reflexivity. Qed.
Lemma st_anode : forall d f alpha aes i,
  anode d f (k_cws key') (key_seed key') alpha aes i = anode d f (k_cws key) (key_seed key) alpha aes i.
Proof using Hst. intros d f alpha aes i. unfold anode. rewrite <- !firstn_map, st_corr, st_seed. reflexivity. Qed.
Lemma st_path_node : forall aes ld alpha i, path_node aes ld key' alpha i = path_node aes ld key alpha i.
Proof using Hst.
  intros. unfold path_node. rewrite <- !firstn_map, st_corr, st_seed. unfold key_bit. destruct Hst as (_ & -> & _). reflexivity.
Qed.
Lemma st_cw : forall i, corr_of (cw_at (k_cws key') i) = corr_of (cw_at (k_cws key) i).
Proof using Hst. intros i. unfold cw_at. rewrite <- !(map_nth corr_of). rewrite st_corr. reflexivity. Qed.
Lemma st_tbl : forall aes d f sb alpha nb,
  tbl aes d f (k_cws key') (key_seed key') sb alpha nb = tbl aes d f (k_cws key) (key_seed key) sb alpha nb.
Proof using Hst.
  intros. unfold tbl. f_equal. apply flat_map_ext. intros i. unfold need_l, need_r. rewrite !st_anode, st_cw. reflexivity.
Qed.
End SameTree.

Lemma results_nth : forall A B (v : nat -> A -> B) (a0 : A) (b0 : B) w k h, (h < length w)%nat ->
  nth h (results A B v k w) b0 = v (k + h)%nat (nth h w a0).
Proof.
  intros A B v a0 b0. induction w as [|x w IH]; intros k h Hh; [cbn in Hh; lia|]. destruct h as [|h]; cbn [results nth].
  - rewrite Nat.add_0_r. reflexivity.
  - rewrite IH by (cbn in Hh; lia). f_equal. lia.
Qed.
Lemma in_choices : forall A (a0 : A) (ls : list (list A)) w, In w (choices ls) ->
  length w = length ls /\ forall h, (h < length ls)%nat -> In (nth h w a0) (nth h ls []).
Proof.
  intros A a0. induction ls as [|l ls IH]; intros w Hw; cbn [choices] in Hw.
  - destruct Hw as [<-|[]]. split; [reflexivity|]. intros h Hh. cbn in Hh. lia.
  - apply in_flat_map in Hw. destruct Hw as (x & Hx & Hw). apply in_map_iff in Hw. destruct Hw as (w' & <- & Hw').
    destruct (IH w' Hw') as [HL HI]. split; [cbn; lia|]. intros [|h] Hh; cbn [nth]; auto. apply HI. cbn in Hh. lia.
Qed.
Lemma choices_in : forall A (a0 : A) (ls : list (list A)) w, length w = length ls ->
  (forall h, (h < length ls)%nat -> In (nth h w a0) (nth h ls [])) -> In w (choices ls).
Proof.
  intros A a0. induction ls as [|l ls IH]; intros w HL HI; cbn [choices].
  - destruct w; [left; reflexivity|discriminate].
  - destruct w as [|x w]; [discriminate|]. apply in_flat_map. exists x. split; [apply (HI 0%nat); cbn; lia|].
    apply in_map. apply IH; [cbn in HL; lia|]. intros h Hh. apply (HI (S h)). cbn. lia.
Qed.
Lemma contents_in : forall d w, In w (contents d) <->
  length w = nlevels d /\ forall h, (h < nlevels d)%nat -> length (nth h w []) = (16 * blocks d h)%nat /\ bytes_ok (nth h w []).
Proof.
  intros d w. unfold contents. fold (nlevels d).
  assert (HX : forall h, (h < nlevels d)%nat ->
    nth h (map (fun h => tuples (16 * nth h (d_blocks d) 0)%nat 256) (seq 0 (nlevels d))) [] = tuples (16 * blocks d h) 256).
  { intros h Hh. rewrite nth_map_seq by lia. reflexivity. }
  split.
  - intros H. apply (in_choices _ []) in H. rewrite map_length, seq_length in H. destruct H as [HL HI]. split; auto.
    intros h Hh. apply tuples_bytes. rewrite <- HX by auto. auto.
  - intros [HL HI]. apply (choices_in _ []); rewrite map_length, seq_length; auto.
    intros h Hh. rewrite HX by auto. apply tuples_bytes. auto.
Qed.
Lemma expansion_node : forall aes d h s, expansion aes (nth h (d_blocks d) 0%nat) s = node_bytes aes d h s.
Proof. intros. unfold expansion, node_bytes, blocks_to_bytes, blocks. rewrite map_map. reflexivity. Qed.

(** The values of level [h] if the other party's seed expands to [b]. *)
Definition level_value (aes : N -> N -> N) (d : dpf) (f : bool) (key : dkey) (alpha : N) (beta : list pvalue) (h : nat)
    (b : bytes) : list pvalue :=
  match nth_error (d_params d) h, nth_error beta h with
  | Some p, Some bt =>
      match get_value_correction_function d (p_type p) with
      | Ok T =>
          let A := anode d f (k_cws key) (key_seed key) alpha aes (h2t d h) in
          match seen T (negb f) (node_bytes aes d h (fst A)) b
                     (domain_to_block_index d (N.shiftr alpha (N.of_nat (ld_last d - ld d h))) h) bt
                     (if f then snd A else negb (snd A)) with
          | Ok vs => vs
          | _ => []
          end
      | _ => []
      end
  | _, _ => []
  end.

Section Dist.
Variables (F : fops) (ps : list param) (types : list cty) (d : dpf).
Hypothesis HC : created F ps types d.
Variable aes : N -> N -> N.
Variables (f : bool) (key : dkey) (sb : nat -> N).
Hypothesis HS : key_shape ps d (party_of f) key.
Hypothesis Hsb : forall i, (0 < i <= n_cws d)%nat -> N.even (sb i) = true.
Hypothesis HND : NoDup (seed_uses d sb).
Let W := hide_wf F ps types d HC.

Definition cipher (alpha : N) (w : list bytes) : N -> N -> N :=
  aes' aes d f (k_cws key) (key_seed key) sb alpha (fun h => nth h w []).
Definition the_key (alpha : N) (beta : list pvalue) (w : list bytes) : dkey :=
  put d key (results _ _ (level_value aes d f key alpha beta) 0 w).

Lemma level_value_ok : forall alpha beta h b, accepted d alpha beta -> (h < nlevels d)%nat ->
  length b = (16 * blocks d h)%nat -> exists p bt T bT ea eb,
  let A := anode d f (k_cws key) (key_seed key) alpha aes (h2t d h) in
  let idx := domain_to_block_index d (N.shiftr alpha (N.of_nat (ld_last d - ld d h))) h in
  let bit1 := if f then snd A else negb (snd A) in
  nth_error (d_params d) h = Some p /\ nth_error beta h = Some bt /\ get_value_correction_function d (p_type p) = Ok T /\
  level_type d h T /\ from_value T bt = Ok bT /\ wt T bT = true /\
  convert_bytes T (node_bytes aes d h (fst A)) = Ok ea /\ good T ea /\ convert_bytes T b = Ok eb /\ good T eb /\
  (idx < elements_per_block T)%nat /\
  level_value aes d f key alpha beta h b = map (to_value T) (corr_with T (negb f) ea eb idx bT bit1).
Proof using All.
  intros alpha beta h b Hacc Hh HL.
  destruct (accepted_level d alpha beta W Hacc) as (_ & _ & _ & _ & HH).
  destruct (HH h Hh) as (p & bt & T & bT & Hp & Hb & HGt & HT & HF & HW & HE). clear HH.
  pose proof (proj1 HT) as Hok.
  set (A := anode d f (k_cws key) (key_seed key) alpha aes (h2t d h)).
  destruct (convert_bytes_ok T (node_bytes aes d h (fst A)) Hok) as (ea & Hea & HLa & HWa).
  { rewrite node_bytes_length. auto. }
  destruct (convert_bytes_ok T b Hok) as (eb & Heb & HLb & HWb).
  { rewrite HL. auto. }
  pose proof (block_index_lt d h T (N.shiftr alpha (N.of_nat (ld_last d - ld d h))) W HT) as Hidx.
  exists p, bt, T, bT, ea, eb. cbv zeta. fold A. do 7 (split; [assumption|]). split; [split; assumption|].
  split; [assumption|]. split; [split; assumption|]. split; [assumption|].
  unfold level_value. rewrite Hp, Hb, HGt. cbv zeta. fold A. unfold seen, corr_with.
  destruct (negb f).
  - rewrite (corr_code T _ _ ea eb _ _ bT); auto; split; auto.
  - rewrite (corr_code T _ _ eb ea _ _ bT); auto; split; auto.
Qed.

Lemma put_kv : forall vs h, (h < nlevels d)%nat -> kv d (k_cws (put d key vs)) (k_last (put d key vs)) h = nth h vs [].
Proof using All.
  intros vs h Hh. unfold kv. cbn [put k_cws k_last]. destruct (Nat.ltb_spec h (nlevels d - 1)) as [Hlt|Hge].
  - rewrite put_values_nth. cbn [Nat.add].
    destruct (nth_error (k_cws key) (h2t d h)) as [cw|] eqn:E.
    + cbn [cw_values]. unfold value_at. rewrite (tree_to_hierarchy_h2t d W) by auto. reflexivity.
    + exfalso. apply nth_error_None in E. rewrite (ks_cws _ _ _ _ HS), (wf_levels _ W) in E.
      pose proof (wf_h2t_mono _ W h (nlevels d - 1) Hlt ltac:(lia)). lia.
  - f_equal. lia.
Qed.
Lemma key_value : forall alpha beta w h, In w (contents d) -> (h < nlevels d)%nat ->
  kv d (k_cws (the_key alpha beta w)) (k_last (the_key alpha beta w)) h = level_value aes d f key alpha beta h (nth h w []).
Proof using All.
  intros alpha beta w h Hw Hh. unfold the_key. rewrite put_kv by auto. apply contents_in in Hw. destruct Hw as [HL _].
  rewrite (results_nth bytes _ _ []) by lia. reflexivity.
Qed.
Lemma key_tree : forall alpha beta w, same_tree (the_key alpha beta w) key.
Proof using All. intros. apply put_same_tree. Qed.
Lemma level_block : forall alpha beta w h, accepted d alpha beta -> In w (contents d) -> (h < nlevels d)%nat ->
  exists T, level_has ps h T /\ block_of T (kv d (k_cws (the_key alpha beta w)) (k_last (the_key alpha beta w)) h).
Proof using All.
  intros alpha beta w h Hacc Hw Hh. rewrite key_value by auto.
  pose proof (proj2 (proj1 (contents_in d w) Hw) h Hh) as [HL _].
  destruct (level_value_ok alpha beta h _ Hacc Hh HL) as (p & bt & T & bT & ea & eb & HH). cbv zeta in HH.
  destruct HH as (_ & _ & _ & HT & _ & HW & _ & Hga & _ & Hgb & _ & ->). exists T.
  split; [eapply level_type_has; eauto|]. eexists.
  destruct (corr_with_good T (proj1 HT) (negb f) ea eb (domain_to_block_index d (N.shiftr alpha (N.of_nat (ld_last d - ld d h))) h) bT
    (if f then snd (anode d f (k_cws key) (key_seed key) alpha aes (h2t d h))
     else negb (snd (anode d f (k_cws key) (key_seed key) alpha aes (h2t d h)))) Hga Hgb HW) as [H1 H2].
  split; [exact H1|]. split; [exact H2|]. reflexivity.
Qed.
Lemma key_keeps_shape : forall alpha beta w, accepted d alpha beta -> In w (contents d) ->
  key_shape ps d (party_of f) (the_key alpha beta w).
Proof using All.
  intros alpha beta w Hacc Hw. pose proof (created_len _ _ _ _ HC) as HLn. constructor.
  - apply (ks_party _ _ _ _ HS).
  - apply (ks_seed _ _ _ _ HS).
  - unfold the_key, put. cbn [k_cws]. rewrite put_values_length. apply (ks_cws _ _ _ _ HS).
  - pose proof (ks_even _ _ _ _ HS) as HE. unfold the_key, put. cbn [k_cws]. apply Forall_forall. intros cw Hcw.
    apply In_nth_error in Hcw. destruct Hcw as (j & Hj). rewrite put_values_nth in Hj.
    destruct (nth_error (k_cws key) j) as [cw'|] eqn:E; inv Hj. cbn [cw_seed]. rewrite Forall_forall in HE. apply HE.
    eapply nth_error_In; eauto.
  - intros h cw Hh Hcw. destruct (level_block alpha beta w h Hacc Hw ltac:(lia)) as (T & HT & HB). exists T. split; auto.
    unfold kv in HB. replace (Nat.ltb h (nlevels d - 1)) with true in HB by (symmetry; apply Nat.ltb_lt; lia).
    unfold h2t in HB. rewrite Hcw in HB. exact HB.
  - intros i cw Hi Hn. unfold the_key, put in Hi. cbn [k_cws] in Hi. rewrite put_values_nth in Hi.
    destruct (nth_error (k_cws key) i) as [cw'|]; inv Hi. cbn [cw_values Nat.add]. unfold value_at.
    apply (tree_to_hierarchy_in F ps types d HC) in Hn. rewrite Hn. reflexivity.
  - pose proof (wf_pos _ W) as Hpos. destruct (level_block alpha beta w (nlevels d - 1) Hacc Hw ltac:(lia)) as (T & HT & HB). exists T.
    rewrite <- HLn. split; auto. unfold kv in HB. rewrite Nat.ltb_irrefl in HB. exact HB.
Qed.

(** The keys generated under the cipher of [w]. *)
Lemma key_generated : forall alpha beta w, accepted d alpha beta -> In w (contents d) ->
  disjoint (path_uses aes ps d key alpha) (seed_uses d sb) ->
  let ks := if f then (sim_other f (the_key alpha beta w) sb, the_key alpha beta w)
            else (the_key alpha beta w, sim_other f (the_key alpha beta w) sb) in
  generate_keys (cipher alpha w) d alpha beta (if f then sb 0%nat else key_seed key) (if f then key_seed key else sb 0%nat) = Ok ks /\
  (forall i, (i <= n_cws d)%nat -> other_seed ps (cipher alpha w) f ks alpha i = sb i) /\
  agree_off (seed_uses d sb) aes (cipher alpha w) /\
  (on_blocks aes -> key_blocks key -> (forall i, (i <= n_cws d)%nat -> sb i < 2 ^ 128) -> on_blocks (cipher alpha w)) /\
  (forall h, (h < nlevels d)%nat -> node_bytes (cipher alpha w) d h (sb (h2t d h)) = nth h w []).
Proof using All.
  intros alpha beta w Hacc Hw HD ks. set (k := the_key alpha beta w) in *.
  pose proof (key_tree alpha beta w) as Hst. fold k in Hst.
  assert (HD' : disjoint (path_uses aes ps d k alpha) (seed_uses d sb)).
  { unfold path_uses. rewrite (seed_uses_ext F ps types d HC _ (fun i => fst (path_node aes (last_ld ps) key alpha i))); [exact HD|].
    intros i _. rewrite (st_path_node key k Hst). reflexivity. }
  assert (Hc : cipher alpha w = aes' aes d f (k_cws k) (key_seed k) sb alpha (fun h => nth h w [])).
  { unfold cipher, aes'. rewrite (st_tbl key k Hst). reflexivity. }
  assert (Hnb : forall h, (h < nlevels d)%nat -> nb_ok aes d f (k_cws k) (k_last k) (key_seed k) alpha beta h (nth h w [])).
  { intros h Hh. destruct (proj2 (proj1 (contents_in d w) Hw) h Hh) as [HL HO]. split; [exact HL|]. split; [exact HO|].
    destruct (level_value_ok alpha beta h _ Hacc Hh HL) as (p & bt & T & bT & ea & eb & HH). cbv zeta in HH.
    destruct HH as (Hp & Hb & HGt & HT & HF & HW & Hea & Hga & Heb & Hgb & Hidx & HV). exists eb, p, T.
    split; [|auto]. exists p, bt, T, bT, ea. eexists. unfold k at 1 2 3 4 5 6 7 8 9 10.
    destruct (corr_with_good T (proj1 HT) (negb f) ea eb (domain_to_block_index d (N.shiftr alpha (N.of_nat (ld_last d - ld d h))) h) bT
      (if f then snd (anode d f (k_cws key) (key_seed key) alpha aes (h2t d h))
       else negb (snd (anode d f (k_cws key) (key_seed key) alpha aes (h2t d h)))) Hga Hgb HW) as [H1 H2].
    cbv zeta. fold k. rewrite !(st_anode key k Hst).
    do 6 (split; [assumption|]). split; [exact Hea|]. split; [apply Hga|]. split; [apply Hga|].
    split; [exact H1|]. split; [exact H2|]. split; [unfold k; rewrite key_value by auto; exact HV|].
    pose proof (solve_corr T (proj1 HT) (negb f) ea eb (domain_to_block_index d (N.shiftr alpha (N.of_nat (ld_last d - ld d h))) h) bT
      (if f then snd (anode d f (k_cws key) (key_seed key) alpha aes (h2t d h))
       else negb (snd (anode d f (k_cws key) (key_seed key) alpha aes (h2t d h)))) Hga Hgb HW) as HX.
    symmetry. unfold solve_with in HX. clear - HX. destruct f; exact HX. }
  pose proof (sim_with F ps types d HC aes f k alpha beta sb (key_keeps_shape alpha beta w Hacc Hw) Hacc Hsb HND HD'
    (fun h => nth h w []) Hnb) as HSim. cbv zeta in HSim. rewrite <- Hc in HSim. destruct HSim as (K1 & K2 & K3 & K4).
  rewrite (st_seed key k Hst) in K1.
  split; [exact K1|]. split; [|split; [exact K3|split]].
  - intros i Hi. unfold other_seed. rewrite <- (K2 i Hi). unfold ks. destruct f; reflexivity.
  - intros HA HB. apply K4; auto. destruct HB as [HB1 HB2]. split; [exact HB1|]. apply Forall_forall. intros cw Hcw.
    unfold k, the_key, put in Hcw. cbn [k_cws] in Hcw.
    apply In_nth_error in Hcw. destruct Hcw as (j & Hj). rewrite put_values_nth in Hj.
    destruct (nth_error (k_cws key) j) as [cw'|] eqn:E; inv Hj. cbn [cw_seed]. rewrite Forall_forall in HB2. apply HB2.
    eapply nth_error_In; eauto.
  - intros h Hh. destruct (proj2 (proj1 (contents_in d w) Hw) h Hh) as [HL HO].
    assert (Hev : forall i, (0 < i <= n_cws d)%nat -> lowest_bit (sb i) = false) by (intros; apply even_lowest; auto).
    unfold cipher. apply (node_bytes_b aes d f (k_cws key) (k_last key) (key_seed key) sb alpha (ks_cws _ _ _ _ HS) (shape_values F ps types d HC _ _ HS) (shape_none F ps types d HC _ _ HS) Hev HND (fun h => nth h w [])); auto.
Qed.

(** Every cipher with these keys and seeds is one of these. *)
Lemma cipher_complete : forall aes1 alpha beta s0 s1 ks, alpha < P128 -> generate_keys aes1 d alpha beta s0 s1 = Ok ks ->
  disjoint (path_uses aes ps d key alpha) (seed_uses d sb) -> on_blocks aes1 ->
  same_tree (key_of f ks) key -> (forall i, (i <= n_cws d)%nat -> other_seed ps aes1 f ks alpha i = sb i) ->
  agree_off (seed_uses d sb) aes aes1 ->
  let w := map (fun h => node_bytes aes1 d h (sb (h2t d h))) (seq 0 (nlevels d)) in
  In w (contents d) /\ forall k x, aes1 k x = cipher alpha w k x.
Proof using All.
  intros aes1 alpha beta s0 s1 ks Ha HG HD HB1 Hst Hsb1 HO w.
  assert (Hwn : forall h, (h < nlevels d)%nat -> nth h w [] = node_bytes aes1 d h (sb (h2t d h))).
  { intros h Hh. unfold w. rewrite nth_map_seq by lia. reflexivity. }
  split.
  { apply contents_in. split; [unfold w; rewrite map_length, seq_length; reflexivity|]. intros h Hh. rewrite Hwn by auto.
    split; [apply node_bytes_length|apply node_bytes_ok]. }
  intros k x.
  pose proof (run_other F ps types d HC aes1 _ _ _ _ ks f Ha HG) as (HO1 & HO2 & HO3 & HO4 & _ & _ & _ & _ & HO9).
  set (kA := key_of f ks) in *.
  assert (Hks : key_seed kA = seed_of s0 s1 f) by (unfold key_seed; rewrite HO1; reflexivity).
  assert (HG' : generate_keys aes1 d alpha beta s0 s1 = Ok (fst ks, snd ks)) by (rewrite HG; destruct ks; reflexivity).
  assert (Hsb' : forall i, (i <= n_cws d)%nat -> fst (anode d (negb f) (k_cws (fst ks)) (seed_of s0 s1 (negb f)) alpha aes1 i) = sb i).
  { intros i Hi. rewrite <- HO9. auto. }
  pose proof (sim_disjoint F ps types d HC aes f key alpha sb HS HD) as HDn.
  assert (HNA : forall i, (i <= n_cws d)%nat -> anode d f (k_cws (fst ks)) (seed_of s0 s1 f) alpha aes1 i =
                                               anode d f (k_cws key) (key_seed key) alpha aes i).
  { intros i Hi. rewrite <- Hks, <- HO2, (st_anode key kA Hst).
    apply (anode_agree F ps types d HC aes aes1 f _ _ alpha (seed_uses d sb)); auto. apply (ks_cws _ _ _ _ HS). }
  set (T1 := tbl aes d f (k_cws key) (key_seed key) sb alpha (fun h => nth h w [])).
  assert (HTu : map fst T1 = seed_uses d sb) by (unfold T1; rewrite tbl_uses; reflexivity).
  assert (HE : forall k' x' v, In ((k', x'), v) T1 -> N.lxor v x' = aes1 k' x').
  { assert (HX : forall k' y, N.lxor (hash aes1 k' y) (sigma y) = aes1 k' (sigma y)).
    { intros. unfold hash. rewrite N.lxor_assoc, N.lxor_nilpotent, N.lxor_0_r. reflexivity. }
    intros k' x' v Hin. unfold T1, tbl in Hin. apply in_app_or in Hin. destruct Hin as [Hin|Hin].
    - apply in_flat_map in Hin. destruct Hin as (i & Hi & Hin). apply in_seq in Hi. cbn [Nat.add] in Hi.
      assert (HHs : forall k'', k'' = kPrgKeyLeft \/ k'' = kPrgKeyRight ->
        hash aes1 k'' (fst (anode d f (k_cws key) (key_seed key) alpha aes i)) =
        hash aes k'' (fst (anode d f (k_cws key) (key_seed key) alpha aes i))).
      { intros k'' Hk. unfold hash. f_equal. apply HO. apply HDn.
        apply in_or_app. left. apply in_flat_map. exists i.
        split; [apply in_seq; unfold n_cws in Hi; lia|]. destruct Hk as [-> | ->]; [left|right; left]; reflexivity. }
      assert (HR : hash aes1 kPrgKeyLeft (sb i) = need_l aes d f (k_cws key) (key_seed key) sb alpha i /\
                   hash aes1 kPrgKeyRight (sb i) = need_r aes d f (k_cws key) (key_seed key) sb alpha i).
      { unfold need_l, need_r. rewrite <- !HHs by auto. rewrite <- !HNA by lia.
        rewrite <- (Hsb' i), <- (Hsb' (S i)) by lia. rewrite <- (st_cw key kA Hst), HO2.
        apply (run_need F ps types d HC aes1 _ _ _ _ _ _ Ha HG' f i). lia. }
      destruct Hin as [Hin|[Hin|[]]]; inv Hin; [rewrite <- (proj1 HR)|rewrite <- (proj2 HR)]; apply HX.
    - apply in_flat_map in Hin. destruct Hin as (h & Hh & Hin). apply in_seq in Hh. cbn [Nat.add] in Hh.
      apply in_map_iff in Hin. destruct Hin as (j & Hin & Hj). apply in_seq in Hj. cbn [Nat.add] in Hj.
      assert (Hhn : (h < nlevels d)%nat) by lia. rewrite (Hwn h Hhn) in Hin. clear Hh. inv Hin. unfold node_bytes.
      rewrite (block_at_blocks _ j (hash aes1 kPrgKeyValue (w128 (sb (h2t d h) + N.of_nat j)))); [apply HX| |apply hash_bound; auto].
      rewrite nth_error_map, nth_error_seq by lia. reflexivity. }
  unfold cipher, aes'. fold T1.
  destruct (in_dec (fun a b : N * N => ltac:(decide equality; apply N.eq_dec)) (k, x) (map fst T1)) as [Hin|Hout].
  - apply in_map_iff in Hin. destruct Hin as ([[k' x'] v] & Hq & Hin). cbn [fst] in Hq. inv Hq.
    rewrite (program_in _ _ _ _ v); [symmetry; apply HE; auto|rewrite HTu; exact HND|exact Hin].
  - rewrite program_out by exact Hout. apply HO. rewrite <- HTu. exact Hout.
Qed.

(** ** The distance *)
Variable cost : nat -> N.
Hypothesis Hcost : forall h T, level_has ps h T -> type_bias T <= cost h.

Lemma level_near : forall alpha beta alpha' beta' h (t : list pvalue -> bool),
  accepted d alpha beta -> accepted d alpha' beta' -> (h < nlevels d)%nat ->
  2 ^ 129 * dist (count (fun b => t (level_value aes d f key alpha beta h b)) (tuples (16 * nth h (d_blocks d) 0)%nat 256))
                 (count (fun b => t (level_value aes d f key alpha' beta' h b)) (tuples (16 * nth h (d_blocks d) 0)%nat 256))
  <= cost h * N.of_nat (length (tuples (16 * nth h (d_blocks d) 0)%nat 256)).
Proof using All.
  intros alpha beta alpha' beta' h t Hacc Hacc' Hh. rewrite tuples_length. fold (blocks d h).
  destruct (accepted_level d alpha beta W Hacc) as (_ & _ & _ & _ & HH).
  destruct (HH h Hh) as (p & b & T & bT & Hp & Hb & HGt & HT & HF & HW & HE). clear HH.
  destruct (accepted_level d alpha' beta' W Hacc') as (_ & _ & _ & _ & HH).
  destruct (HH h Hh) as (p' & b' & T' & bT' & Hp' & Hb' & HGt' & _ & HF' & HW' & _). clear HH.
  assert (p' = p) as -> by congruence. assert (T' = T) as -> by congruence.
  apply N.le_trans with (type_bias T * 256 ^ N.of_nat (16 * blocks d h)).
  2:{ apply N.mul_le_mono_r. apply Hcost. eapply level_type_has; eauto. }
  unfold level_value. rewrite Hp, Hb, Hb', HGt. cbv zeta.
  apply (correction_distance T (negb f) (16 * blocks d h)%nat _ _ _ _ b b' bT bT' _ _
    (fun r => t (match r with Ok vs => vs | _ => [] end))); auto; try (rewrite node_bytes_length; exact HE);
    try (apply block_index_lt; auto). apply HT.
Qed.
Lemma key_distance : forall alpha beta alpha' beta' (adv : dkey -> oracle_program),
  accepted d alpha beta -> accepted d alpha' beta' ->
  disjoint (path_uses aes ps d key alpha) (seed_uses d sb) -> disjoint (path_uses aes ps d key alpha') (seed_uses d sb) ->
  (forall k, same_tree k key -> disjoint (asked aes (adv k)) (seed_uses d sb)) ->
  let s0 := if f then sb 0%nat else key_seed key in
  let s1 := if f then key_seed key else sb 0%nat in
  let outputs a b := count (fun w => passes f (fun k => run_program (cipher a w) (adv k)) (generate_keys (cipher a w) d a b s0 s1)) (contents d) in
  2 ^ 129 * dist (outputs alpha beta) (outputs alpha' beta') <= sumN (map cost (seq 0 (length ps))) * N.of_nat (length (contents d)).
Proof using All.
  intros alpha beta alpha' beta' adv Hacc Hacc' HD HD' Hadv s0 s1 outputs.
  assert (HX : forall a b, accepted d a b -> disjoint (path_uses aes ps d key a) (seed_uses d sb) -> outputs a b =
    count (fun w => run_program aes (adv (put d key (results _ _ (level_value aes d f key a b) 0 w)))) (contents d)).
  { intros a b Hab HDa. unfold outputs, count. f_equal. f_equal. apply filter_ext_in. intros w Hw.
    pose proof (key_generated a b w Hab Hw HDa) as (HG & _ & HO & _). cbv zeta in HG. fold s0 s1 in HG. rewrite HG.
    unfold passes, key_of. fold (the_key a b w).
    destruct (program_agree _ aes (cipher a w) (adv (the_key a b w)) HO (Hadv _ (key_tree a b w))) as [HR _].
    destruct f; cbn [fst snd]; exact HR. }
  rewrite (HX alpha beta), (HX alpha' beta') by auto. rewrite <- (created_len _ _ _ _ HC). unfold contents. fold (nlevels d).
  apply (hybrid bytes (list pvalue) (fun h => tuples (16 * nth h (d_blocks d) 0)%nat 256)
    (level_value aes d f key alpha beta) (level_value aes d f key alpha' beta') cost (2 ^ 129) (nlevels d) 0)
    with (test := fun vs => run_program aes (adv (put d key vs))).
  intros h Hh t. apply level_near; auto. lia.
Qed.
End Dist.
