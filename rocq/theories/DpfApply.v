(** EvaluateAndApply passes, level by level, the shares of all keys to the callback. *)
From Coq Require Import List NArith ZArith Lia Bool ZifyBool ZifyNat ZifyN.
From Verif Require Import Base ListUtil ValueTypesModel ValueTypesSpec ValueTypesProofs
  ConvProofs BitsProofs TypeProofs DpfModel DpfTree DpfWf DpfGen DpfEval DpfPoint.
Import ListNotations.
Ltac Zify.zify_post_hook ::= Z.div_mod_to_equations.
Open Scope N_scope.

(** Running a callback over the values of successive levels until it says stop. *)
Fixpoint run_op {S} (op : S -> list cval -> S * bool) (s : S) (vs : list (list cval)) : S :=
  match vs with
  | [] => s
  | v :: vs' => let '(s', continue) := op s v in if continue then run_op op s' vs' else s'
  end.

Lemma concat_rows_eq : forall A (f g : nat -> list A) n,
  (forall i, (i < n)%nat -> f i = g i) -> map f (seq 0 n) = map g (seq 0 n).
Proof. intros A f g n H. apply map_ext_in. intros i Hi. apply in_seq in Hi. apply H. lia. Qed.

Section Apply.
Variable aes : N -> N -> N.
Variable d : dpf.
Hypothesis W : wf d.
Variable T : cty.
Variables (keys : list dkey) (points : list N) (rs : nat).
Hypothesis HL : length points = length keys.
Hypothesis HK : Forall (key_ok d) keys.
Hypothesis HP : Forall (fun x => x < P128) points.
Hypothesis HN : (Z.of_nat (d_levels d) * Z.of_nat (length keys) < 2 ^ 31)%Z.

(** The nodes of all keys at tree level [t]. *)
Definition nodes_at (t : nat) : list node :=
  zip2 (fun key x => node_at aes key t (N.shiftr x (N.of_nat (rs + ld_last d - t)))) keys points.

(** The values of level [h], given the corrections of each key. *)
Definition level_point (h : nat) (x : N) : N := N.shiftr x (N.of_nat (rs + ld_last d - ld d h)).
Definition level_values (h : nat) : res (list cval) :=
  mapM (fun kx : dkey * N =>
          corrs <- values_to_array T (key_values d (fst kx) h) ;;
          Ok (share aes d T (fst kx) h corrs (level_point h (snd kx))))
       (combine keys points).

Lemma apply_level_eq : forall h start, (h < nlevels d)%nat -> level_type d h T ->
  (keys <> [] -> enough_bytes T (16 * blocks d h)) -> (start <= h2t d h)%nat ->
  apply_level aes d T keys points rs h start (h2t d h) (nodes_at start)
  = (values <- level_values h ;; Ok (values, nodes_at (h2t d h))).
Proof.
  intros h start Hh HT Hen Hs. unfold apply_level.
  pose proof (h2t_le_ld_last d W h Hh) as Hld. pose proof (wf_h2t_ld _ W h Hh) as Hhl.
  pose proof (ld_le_last d W h Hh) as Hll.
  set (n := (h2t d h - start)%nat).
  assert (Hlen : Forall (fun k => (h2t d h <= length (k_cws k))%nat) keys).
  { eapply Forall_impl; [|exact HK]. intros k Hk. apply (key_ok_h2t d W k h Hk Hh). }
  assert (HNst : forall t, length (nodes_at t) = length keys).
  { intros t. unfold nodes_at. apply zip2_length. auto. }
  assert (HST : (if Nat.ltb 0 n then
           cws <- mapM (fun i => mapM (fun key =>
                                         cw <- at_or_ub (k_cws key) (start + i) ;;
                                         Ok (corr_of cw)) keys) (seq 0 n) ;;
           evaluate_seeds_internal aes n (to_int32 (Z.of_nat n * Z.of_nat (length keys))) (nodes_at start) points
             (rs + ld_last d - h2t d h) (concat cws)
         else Ok (nodes_at start)) = Ok (nodes_at (h2t d h))).
  { destruct (Nat.ltb_spec 0 n) as [Hn|Hn].
    - set (cols := map (fun k => map corr_of (firstn n (skipn start (k_cws k)))) keys).
      rewrite (mapM_map_ok _ _ _ (fun l => map (fun c => nth l c (0, (false, false))) cols)).
      2:{ intros i Hi. apply in_seq in Hi. unfold cols. rewrite map_map.
          apply mapM_map_ok. intros k Hk. rewrite Forall_forall in Hlen. specialize (Hlen k Hk).
          unfold at_or_ub. destruct (nth_error (k_cws k) (start + i)) as [cw|] eqn:E.
          2:{ apply nth_error_None in E. lia. }
          cbn [bind]. f_equal. symmetry. apply nth_error_nth. apply nth_error_map_some.
          rewrite nth_error_firstn_lt by lia. rewrite nth_error_skipn'. auto. }
      cbn [bind].
      assert (Hi : to_int32 (Z.of_nat n * Z.of_nat (length keys)) = (Z.of_nat n * Z.of_nat (length (nodes_at start)))%Z).
      { rewrite HNst. unfold to_int32. pose proof (wf_levels _ W). pose proof (h2t_le_last d W h Hh).
        assert (0 <= Z.of_nat n * Z.of_nat (length keys) < 2 ^ 31)%Z.
        { split; [lia|]. eapply Z.le_lt_trans; [|exact HN]. apply Z.mul_le_mono_nonneg_r; unfold n; lia. }
        rewrite Z.mod_small by lia. destruct (Z.ltb_spec (Z.of_nat n * Z.of_nat (length keys)) 2147483648); lia. }
      rewrite Hi.
      rewrite evaluate_seeds_internal_each; auto.
      + f_equal. unfold cols, nodes_at.
        assert (HG : forall ks ps, Forall (fun k => (h2t d h <= length (k_cws k))%nat) ks ->
          zip3 (fun col p nd => walk aes col (N.shiftr p (N.of_nat (rs + ld_last d - h2t d h))) nd)
            (map (fun k => map corr_of (firstn n (skipn start (k_cws k)))) ks) ps
            (zip2 (fun key x => node_at aes key start (N.shiftr x (N.of_nat (rs + ld_last d - start)))) ks ps)
          = zip2 (fun key x => node_at aes key (h2t d h) (N.shiftr x (N.of_nat (rs + ld_last d - h2t d h)))) ks ps).
        { clear - Hs Hld. induction ks as [|k ks IH]; intros [|x ps] HF; cbn [map zip2 zip3]; auto.
          fcons HF Hk HF'. f_equal; [|apply IH; auto].
          rewrite (node_at_split aes k start (h2t d h)) by auto. fold n. f_equal. f_equal.
          rewrite N.shiftr_shiftr. f_equal. unfold n. lia. }
        apply HG. auto.
      + rewrite HNst. auto.
      + unfold cols. rewrite map_length, HNst. auto.
      + unfold cols. rewrite Forall_map. eapply Forall_impl; [|exact Hlen]. cbv beta. intros k Hk.
        rewrite map_length, firstn_length, skipn_length. unfold n. lia.
    - assert (start = h2t d h) by (unfold n in Hn; lia). subst start. reflexivity. }
  cbv zeta. fold n. rewrite HST. cbn [bind].
  assert (HV : mapM (fun ik : nat * (dkey * (N * node)) =>
      let '(i, (key, (x, n))) := ik in
      elements <- convert_bytes T (block_bytes (blocks d h) (hash_expanded_seeds aes (blocks d h) (map fst (nodes_at (h2t d h)))) i) ;;
      corrections <- value_correction d T key h ;;
      let index := if Nat.ltb 1 (elements_per_block T) && Nat.ltb (rs + ld_last d - ld d h) 128
                   then domain_to_block_index d (N.shiftr x (N.of_nat (rs + ld_last d - ld d h))) h
                   else 0%nat in
      correct_element T (k_party key) (snd n) elements corrections index)
    (combine (seq 0 (length keys)) (combine keys (combine points (nodes_at (h2t d h)))))
    = level_values h).
  { assert (HLc : length keys = length (combine keys (combine points (nodes_at (h2t d h))))).
    { rewrite !combine_length, HNst. lia. }
    rewrite HLc at 1. clear HLc.
    rewrite (mapM_enum_ext _ _ _ (fun kxn : dkey * (N * node) =>
       corrs <- values_to_array T (key_values d (fst kxn) h) ;;
       Ok (bshare aes d T (fst kxn) h corrs (snd (snd kxn))
             (domain_to_block_index d (level_point h (fst (snd kxn))) h)))).
    - unfold level_values, nodes_at.
      assert (HG : forall ks ps, length ps = length ks ->
        mapM (fun kxn : dkey * (N * node) =>
           corrs <- values_to_array T (key_values d (fst kxn) h) ;;
           Ok (bshare aes d T (fst kxn) h corrs (snd (snd kxn))
                 (domain_to_block_index d (level_point h (fst (snd kxn))) h)))
          (combine ks (combine ps (zip2 (fun key x => node_at aes key (h2t d h)
              (N.shiftr x (N.of_nat (rs + ld_last d - h2t d h)))) ks ps)))
        = mapM (fun kx : dkey * N =>
          corrs <- values_to_array T (key_values d (fst kx) h) ;;
          Ok (share aes d T (fst kx) h corrs (level_point h (snd kx)))) (combine ks ps)).
      { clear - Hhl Hll. induction ks as [|k ks IH]; intros [|x ps] HL; cbn in HL; try discriminate; auto.
        cbn [combine zip2 mapM fst snd]. rewrite IH by lia.
        assert (HX : forall corrs, bshare aes d T k h corrs (node_at aes k (h2t d h) (N.shiftr x (N.of_nat (rs + ld_last d - h2t d h))))
            (domain_to_block_index d (level_point h x) h) = share aes d T k h corrs (level_point h x)).
        { intros corrs. unfold share. f_equal. f_equal. unfold level_point, domain_to_tree_index, block_bits.
          rewrite N.shiftr_shiftr. f_equal. lia. }
        destruct (values_to_array T (key_values d k h)); cbn [bind]; auto. rewrite HX. reflexivity. }
      apply HG. auto.
    - intros i [key [x nd]] Hi. cbn [Nat.add fst snd].
      assert (Hnd : nth_error (map fst (nodes_at (h2t d h))) i = Some (fst nd) /\ In key keys /\ In x points).
      { assert (HX : nth_error (nodes_at (h2t d h)) i = Some nd /\ In key keys /\ In x points).
        { split; [|split].
          - clear - Hi. generalize dependent (nodes_at (h2t d h)). revert points i.
            induction keys as [|k ks IH]; intros [|p ps] [|i] [|m ms] Hi; cbn in *; try discriminate.
            + inv Hi. auto.
            + eapply IH; eauto.
          - apply nth_error_In in Hi. eapply in_combine_l; eauto.
          - apply nth_error_In in Hi. apply in_combine_r in Hi. eapply in_combine_l; eauto. }
        destruct HX as [H1 H2]. split; auto. apply nth_error_map_some. auto. }
      destruct Hnd as (Hnd & Hkin & Hxin).
      rewrite (block_bytes_node aes d h _ _ _ Hnd).
      assert (Hen' : enough_bytes T (16 * blocks d h)) by (apply Hen; intros HX; rewrite HX in Hkin; destruct Hkin).
      destruct (node_elems_ok aes d h T HT Hen' nd) as (He & _). rewrite He. cbn [bind].
      rewrite Forall_forall in HK, HP.
      rewrite value_correction_values by (auto using key_ok_len).
      destruct (values_to_array T (key_values d key h)) as [corrs| | |] eqn:EV; cbn [bind]; auto.
      pose proof (values_to_array_len d h T Hh HT _ _ EV) as [HLc _].
      assert (Hidx : (if Nat.ltb 1 (elements_per_block T) && Nat.ltb (rs + ld_last d - ld d h) 128
                   then domain_to_block_index d (N.shiftr x (N.of_nat (rs + ld_last d - ld d h))) h
                   else 0%nat) = domain_to_block_index d (level_point h x) h).
      { unfold level_point. destruct (Nat.ltb_spec (rs + ld_last d - ld d h) 128) as [E|E].
        - rewrite andb_true_r. apply index_choice; auto.
        - rewrite andb_false_r. replace (N.shiftr x (N.of_nat (rs + ld_last d - ld d h))) with 0.
          + unfold domain_to_block_index. rewrite N.land_0_l. reflexivity.
          + apply N.bits_inj. intros j. rewrite N.bits_0, N.shiftr_spec'. symmetry.
            apply testbit_high; auto. lia. }
      rewrite Hidx. apply correct_element_bshare; auto. apply block_index_epb; auto. }
  cbv zeta in HV. rewrite HV. reflexivity.
Qed.

Lemma apply_loop_ok : forall S (op : S -> list cval -> S * bool) n h start s vs,
  (h + n <= nlevels d)%nat -> (start <= h2t d h \/ n = 0)%nat ->
  (forall k, (h <= k < h + n)%nat -> level_type d k T /\ enough_bytes T (16 * blocks d k)) ->
  mapM level_values (seq h n) = Ok vs ->
  apply_loop aes d T keys points rs op n h start (nodes_at start) s = Ok (run_op op s vs).
Proof.
  induction n as [|n IH]; intros h start s vs Hn Hs HT HV; cbn [seq mapM] in HV.
  - inv HV. reflexivity.
  - bind_inv HV. rename a into v. bind_inv HV. rename a into vs'. inv HV.
    destruct (HT h ltac:(lia)) as [HT1 HT2].
    cbn [apply_loop]. rewrite apply_level_eq by (auto; lia). rewrite Hb. cbn [bind run_op].
    destruct (op s v) as [s' [|]]; auto. apply IH; auto; try lia.
    + destruct n; [right; auto|left]. pose proof (wf_h2t_mono _ W h (Datatypes.S h)). lia.
    + intros k Hk. apply HT. lia.
Qed.

End Apply.
