(** What EvaluateAndApply and the DCF do with points that are out of range (C46). *)
From Coq Require Import List NArith ZArith QArith Lia Bool ZifyBool ZifyNat ZifyN.
From Verif Require Import Base ListUtil ValueTypesModel ValueTypesSpec DpfModel DpfWf DpfApply DpfSpec DpfHist DpfFacts DpfExamples
  PirDbProofs MicProofs DcfModel DcfSpec DcfProofs DcfGen PropertiesDpf PropertiesDcf.
Import ListNotations.
Open Scope N_scope.

Lemma chunks_map : forall A B (f : A -> B) n l, chunks n (map f l) = map (map f) (chunks n l).
Proof.
  intros A B f n l. unfold chunks. rewrite map_length. generalize (length l) as k. intros k. revert l.
  induction k as [|k IH]; intros l; cbn [chunks_fuel]; [reflexivity|]. destruct l as [|a l]; [reflexivity|].
  cbn [map]. rewrite <- (map_cons f a l), firstn_map, skipn_map, IH. reflexivity.
Qed.
Lemma combine_map_fst : forall A B C (g : A -> C) (l : list A) (r : list B),
  combine (map g l) r = map (fun a => (g (fst a), snd a)) (combine l r).
Proof. induction l as [|a l IH]; intros [|b r]; cbn; auto. rewrite IH. reflexivity. Qed.
Lemma combine_map_snd : forall A B C (g : B -> C) (l : list A) (r : list B),
  combine l (map g r) = map (fun a => (fst a, g (snd a))) (combine l r).
Proof. induction l as [|a l IH]; intros [|b r]; cbn; auto. rewrite IH. reflexivity. Qed.

Section Reduce.
Variables (aes : N -> N -> N) (m : N).
Let g (x : N) : N := x mod 2 ^ m.
Lemma g_bit : forall x i, i < m -> N.testbit (g x) i = N.testbit x i.
Proof using All. intros x i H. unfold g. apply N.mod_pow2_bits_low. exact H. Qed.

Lemma walk_one_reduce : forall ns nl level ncw rs cws index path bit l r, (level < nl)%nat -> N.of_nat (nl + rs) <= m ->
  walk_one ns nl level ncw rs cws index (g path) bit l r = walk_one ns nl level ncw rs cws index path bit l r.
Proof using All.
  intros. unfold walk_one. rewrite g_bit by lia. reflexivity.
Qed.
Lemma walk_loop_reduce : forall f paths index st l r, (forall index p b l r, f index (g p) b l r = f index p b l r) ->
  walk_batch_loop f index (map g paths) st l r = walk_batch_loop f index paths st l r.
Proof using All.
  intros f paths. induction paths as [|p paths IH]; intros index st l r H; [reflexivity|]. cbn [map walk_batch_loop].
  destruct st as [|[s b] st]; [reflexivity|]. destruct l as [|x l]; [reflexivity|]. destruct r as [|y r]; [reflexivity|].
  rewrite H, IH by auto. reflexivity.
Qed.
Lemma walk_batches_reduce : forall ns nl ncw rs cws bs start, N.of_nat (nl + rs) <= m ->
  walk_batches aes ns nl ncw rs cws start (map (map (fun a : N * node => (g (fst a), snd a))) bs)
  = walk_batches aes ns nl ncw rs cws start bs.
Proof using All.
  intros ns nl ncw rs cws bs. induction bs as [|b bs IH]; intros start Hm; [reflexivity|]. cbn [map walk_batches].
  rewrite map_length, IH by auto. rewrite (map_map _ snd). cbn [snd].
  change (map (fun x : N * node => snd x) b) with (map snd b).
  erewrite foldM_ext_in; [reflexivity|]. intros st level Hl. apply in_seq in Hl. unfold walk_batch_level.
  rewrite map_map. cbn [fst snd]. rewrite <- (map_map fst g). apply walk_loop_reduce.
  intros. apply walk_one_reduce; lia.
Qed.
Lemma internal_reduce : forall nl ncw st paths rs cws, N.of_nat (nl + rs) <= m ->
  evaluate_seeds_internal aes nl ncw st (map g paths) rs cws = evaluate_seeds_internal aes nl ncw st paths rs cws.
Proof using All.
  intros. unfold evaluate_seeds_internal. rewrite combine_map_fst, chunks_map, walk_batches_reduce by auto. reflexivity.
Qed.
Lemma block_index_reduce : forall d x shift h, N.of_nat (shift + block_bits d h) <= m ->
  domain_to_block_index d (N.shiftr (g x) (N.of_nat shift)) h = domain_to_block_index d (N.shiftr x (N.of_nat shift)) h.
Proof using All.
  intros d x shift h Hm. unfold domain_to_block_index. f_equal. apply N.bits_inj. intros i. rewrite !N.land_spec, !N.shiftr_spec' by lia.
  destruct (N.lt_ge_cases i (N.of_nat (block_bits d h))) as [Hi|Hi].
  - rewrite g_bit by lia. reflexivity.
  - rewrite N.ones_spec_high by assumption. rewrite !andb_false_r. reflexivity.
Qed.
Section Dpf.
Variable d : dpf.
Hypothesis W : wf d.
Variable rs : nat.
Hypothesis Hm : m = N.of_nat (rs + ld_last d).
Lemma level_reduce : forall T keys points h start st, (h < nlevels d)%nat ->
  apply_level aes d T keys (map g points) rs h start (h2t d h) st = apply_level aes d T keys points rs h start (h2t d h) st.
Proof using All.
  intros T keys points h start st Hh. unfold apply_level.
  pose proof (wf_h2t_ld _ W h Hh) as H1.
  assert (H2 : (ld d h <= ld_last d)%nat).
  { unfold ld_last. destruct (Nat.eq_dec h (nlevels d - 1)) as [->|E]; [lia|]. pose proof (wf_ld_mono _ W h (nlevels d - 1) ltac:(lia) ltac:(lia)). lia. }
  match goal with |- bind (if ?c then ?a else ?b) ?k = bind (if _ then ?a' else _) ?k' => assert (E : (if c then a else b) = (if c then a' else b)) end.
  { destruct (Nat.ltb 0 (h2t d h - start)); [|reflexivity].
    match goal with |- bind ?x _ = _ => destruct x; cbn [bind]; try reflexivity end. apply internal_reduce. lia. }
  rewrite E. clear E. match goal with |- bind ?x _ = _ => destruct x as [st'| | |]; cbn [bind]; try reflexivity end.
  rewrite combine_map_fst, (combine_map_snd _ _ _ (fun a : N * node => (g (fst a), snd a))),
    (combine_map_snd _ _ _ (fun a : dkey * (N * node) => (fst a, (g (fst (snd a)), snd (snd a))))), mapM_map_l.
  erewrite mapM_ext; [reflexivity|]. intros [i [key [x n]]] _. cbn [fst snd]. rewrite block_index_reduce; [reflexivity|].
  unfold block_bits. lia.
Qed.
Lemma loop_reduce : forall S T keys points (op op' : S -> list cval -> S * bool) (I : nat -> S -> Prop),
  (forall h s vs, I h s -> op s vs = op' s vs) ->
  (forall h s vs s', I h s -> op s vs = (s', true) -> I (Datatypes.S h) s') ->
  forall n h start st s, (h + n <= nlevels d)%nat -> I h s ->
  apply_loop aes d T keys (map g points) rs op' n h start st s = apply_loop aes d T keys points rs op n h start st s.
Proof using All.
  intros S T keys points op op' I HO HI. induction n as [|n IH]; intros h start st s Hn Hs; cbn [apply_loop]; [reflexivity|].
  rewrite level_reduce by lia. destruct (apply_level _ _ _ _ _ _ _ _ _ _) as [[vs st']| | |]; cbn [bind]; try reflexivity.
  rewrite <- (HO h) by assumption. destruct (op s vs) as [s' [|]] eqn:E; [|reflexivity]. apply IH; [lia|]. eapply HI; eauto.
Qed.
End Dpf.
End Reduce.

(** EvaluateAndApply does not check its points, but no evaluation depends on the excess bits:
    it does the same as for the points modulo 2^(log_domain_size + rightshift), for all keys and
    callbacks. *)
Theorem C46_apply_reduces : forall aes F ps types d S T keys points (op : S -> list cval -> S * bool) rs s,
  created F ps types d ->
  evaluate_and_apply aes d T keys points op rs s
  = evaluate_and_apply aes d T keys (map (fun x => x mod 2 ^ (N.of_nat rs + last_ld ps)) points) op rs s.
Proof.
  intros aes F ps types d S T keys points op rs s HC. destruct (created_wf _ _ _ _ HC) as (W & _).
  assert (E : N.of_nat rs + last_ld ps = N.of_nat (rs + ld_last d)).
  { rewrite Nat2N.inj_add. f_equal. pose proof (created_len _ _ _ _ HC) as HL. pose proof (wf_pos _ W).
    unfold last_ld, ld_last. rewrite <- HL. apply (created_ld _ _ _ _ _ HC). lia. }
  rewrite E. unfold evaluate_and_apply. rewrite map_length.
  destruct (check _ _); cbn [bind]; try reflexivity. destruct (iterM _ _); cbn [bind]; try reflexivity.
  symmetry. apply (loop_reduce aes _ d W rs eq_refl S T keys points op op (fun _ _ => True)); auto.
Qed.
Print Assumptions C46_apply_reduces.

(** So C03 and C04 hold for all points: those that exceed the domain stand for their remainder. *)
Lemma reduced_points : forall (m : N) points, Forall (fun x => x < 2 ^ 128) points ->
  Forall (fun x => x < 2 ^ 128 /\ x < 2 ^ m) (map (fun x => x mod 2 ^ m) points).
Proof.
  intros m points HP. rewrite Forall_map. eapply Forall_impl; [|exact HP]. cbv beta. intros x Hx.
  assert (Hm : 2 ^ m <> 0) by (apply N.pow_nonzero; discriminate).
  pose proof (N.mod_le x _ Hm). pose proof (N.mod_lt x _ Hm). split; [eapply N.le_lt_trans; eassumption|assumption].
Qed.
Theorem C03_apply_all_points : forall aes F ps types d T (gs : list gen_pair) points rs,
  created F ps types d -> (forall h, (h < length ps)%nat -> level_has ps h T) ->
  Forall (generated aes d) gs -> length points = length gs -> Forall (fun x => x < 2 ^ 128) points ->
  N.of_nat (length gs) * (last_ld ps + 1) < 2 ^ 31 ->
  exists vss0 vss1 : list (list cval), length vss0 = length ps /\ length vss1 = length ps /\
    (forall S (op : S -> list cval -> S * bool) s,
       evaluate_and_apply aes d T (map gp_key0 gs) points op rs s = Ok (run_op op s vss0)) /\
    (forall S (op : S -> list cval -> S * bool) s,
       evaluate_and_apply aes d T (map gp_key1 gs) points op rs s = Ok (run_op op s vss1)) /\
    forall h vs0 vs1, nth_error vss0 h = Some vs0 -> nth_error vss1 h = Some vs1 ->
      length vs0 = length gs /\ length vs1 = length gs /\
      forall i g x v0 v1, nth_error gs i = Some g -> nth_error points i = Some x ->
        nth_error vs0 i = Some v0 -> nth_error vs1 i = Some v1 ->
        exists b v, nth_error (gp_beta g) h = Some b /\ repr T b v /\
          gsum T v0 v1 (point_function T (alpha_prefix ps (gp_alpha g) h) v
                          (x mod 2 ^ (N.of_nat rs + last_ld ps) / 2 ^ (N.of_nat rs + last_ld ps - level_ld ps h))).
Proof.
  intros aes F ps types d T gs points rs HC HT HG HL HP HN.
  destruct (C03_apply_shares aes F ps types d T gs (map (fun x => x mod 2 ^ (N.of_nat rs + last_ld ps)) points) rs HC HT HG
    ltac:(rewrite map_length; exact HL) (reduced_points _ _ HP) HN) as (vss0 & vss1 & H0 & H1 & HA0 & HA1 & HV).
  exists vss0, vss1. split; [exact H0|]. split; [exact H1|]. split; [|split].
  - intros S op s. rewrite (C46_apply_reduces aes F ps types d) by exact HC. apply HA0.
  - intros S op s. rewrite (C46_apply_reduces aes F ps types d) by exact HC. apply HA1.
  - intros h vs0 vs1 E0 E1. destruct (HV h vs0 vs1 E0 E1) as (L0 & L1 & HR). split; [exact L0|]. split; [exact L1|].
    intros i g x v0 v1 Hg Hx. apply HR; [exact Hg|]. exact (map_nth_error (fun x => x mod 2 ^ (N.of_nat rs + last_ld ps)) i points Hx).
Qed.
Print Assumptions C03_apply_all_points.
Theorem C04_apply_all_points : forall aes F ps types d T keys points rs S (op : S -> list cval -> S * bool) s,
  created F ps types d -> (forall h, (h < length ps)%nat -> level_has ps h T) -> roomy ps d T ->
  Forall (fun key => validate_dpf_key d key = Ok tt) keys -> length points = length keys ->
  Forall (fun x => x < 2 ^ 128) points -> N.of_nat (length keys) * (last_ld ps + 1) < 2 ^ 31 ->
  evaluate_and_apply aes d T keys points op rs s
  = apply_spec aes d ps T keys (map (fun x => x mod 2 ^ (N.of_nat rs + last_ld ps)) points) rs op (length ps) 0 s.
Proof.
  intros aes F ps types d T keys points rs S op s HC HT HS HK HL HP HN.
  rewrite (C46_apply_reduces aes F ps types d) by exact HC.
  apply (C04_apply_is_at aes F ps types d); auto; [rewrite map_length; exact HL|apply reduced_points; exact HP].
Qed.
Print Assumptions C04_apply_all_points.
(** A point beyond the domain of C03's example. *)
Example C03_apply_all_points_nonvacuous :
  level_ld ex3_ps (length ex3_ps - 1) = 7 /\
  is_ok (evaluate_and_apply ex_aes ex3_d (TInt 32) (map gp_key0 ex3_gs) [2 ^ 127 + 77; 120; 3] ex3_op 0 ([], 1%nat)) = true /\
  evaluate_and_apply ex_aes ex3_d (TInt 32) (map gp_key0 ex3_gs) [2 ^ 127 + 77; 120; 3] ex3_op 0 ([], 1%nat)
  = evaluate_and_apply ex_aes ex3_d (TInt 32) (map gp_key0 ex3_gs) [77; 120; 3] ex3_op 0 ([], 1%nat).
Proof. split; [reflexivity|]. split; vm_compute; reflexivity. Qed.

(** The DCF compares the points modulo the domain size. *)
Theorem C46_dcf_reduces : forall aes F p types c T keys points output,
  dcf_created F p types c ->
  dcf_batch_evaluate aes c T keys points output
  = dcf_batch_evaluate aes c T keys (map (fun x => x mod 2 ^ Z.to_N (p_ld p)) points) output.
Proof.
  intros aes F p types c T keys points output HD.
  destruct (dcf_created_facts F p types c HD) as (HC & Hpar & H1). destruct (created_wf _ _ _ _ HC) as (W & _).
  assert (E : Z.to_N (p_ld p) = N.of_nat (1 + ld_last (dc_dpf c))).
  { assert (HL : nlevels (dc_dpf c) = Z.to_nat (p_ld p)).
    { rewrite (created_len _ _ _ _ HC). unfold dcf_dpf_parameters. rewrite map_length, seq_length. reflexivity. }
    unfold ld_last. rewrite HL.
    assert (Hl : level_ld (dcf_dpf_parameters p) (Z.to_nat (p_ld p) - 1) = N.of_nat (Z.to_nat (p_ld p) - 1)).
    { unfold level_ld, dcf_dpf_parameters. erewrite map_nth_error; [|apply (nth_error_nth' _ 0%nat); rewrite seq_length; lia].
      rewrite seq_nth by lia. cbn [p_ld]. lia. }
    rewrite (created_ld _ _ _ _ _ HC) in Hl by (unfold dcf_dpf_parameters; rewrite map_length, seq_length; lia). lia. }
  rewrite E. unfold dcf_batch_evaluate. rewrite map_length.
  destruct (check (Nat.eqb (length keys) _) _); cbn [bind]; try reflexivity.
  destruct (check (Nat.eqb (length output) _) _); cbn [bind]; try reflexivity. destruct (_ <? 0)%Z; [reflexivity|].
  unfold evaluate_and_apply. rewrite map_length.
  destruct (check (Nat.eqb _ _) _); cbn [bind]; try reflexivity. destruct (iterM _ _); cbn [bind]; try reflexivity.
  f_equal. symmetry.
  apply (loop_reduce aes _ (dc_dpf c) W 1 eq_refl _ T _ points _ _
    (fun h s => match s with Ok (level, _) => level = Z.of_nat h | _ => True end)).
  - intros h s vs HI. unfold dcf_accumulate. destruct s as [[level out]| | |]; try reflexivity. subst level.
    rewrite Hpar. destruct (negb _); [reflexivity|].
    rewrite combine_map_fst, mapM_map_l.
    match goal with |- context [mapM ?f (combine points _)] => match goal with |- context [mapM ?f' (combine points _)] =>
      assert_fails (constr_eq f f'); replace (mapM f' (combine points (combine out vs))) with (mapM f (combine points (combine out vs))); [reflexivity|] end end.
    apply mapM_ext. intros [x ov] _. cbn [fst snd]. unfold bit_128.
    destruct (Z.ltb_spec (p_ld p - Z.of_nat h - 1) 0); [reflexivity|]. destruct (_ <=? _)%Z; [reflexivity|]. cbn [orb].
    rewrite N.mod_pow2_bits_low by lia. reflexivity.
  - intros h s vs s' HI. unfold dcf_accumulate. destruct s as [[level out]| | |]; try discriminate. subst level.
    destruct (negb _); [discriminate|]. intros H.
    match type of H with match ?x with _ => _ end = _ => destruct x as [[l o]| | |] eqn:EX; try discriminate end.
    injection H as <-. bind_inv EX. bind_inv EX. injection EX as <- _. lia.
  - cbn. lia.
  - reflexivity.
Qed.
Print Assumptions C46_dcf_reduces.
(** Points 1000 and 1000 mod 32 = 8 of a domain of size 32. *)
Example C46_reduces_nonvacuous :
  dcf_created ex_F xd_p [ex_tuple] xd_c /\ p_ld xd_p = 5%Z /\
  dcf_batch_evaluate ex_aes xd_c ex_tuple (map dp_key0 xd_gs) [1000; 37; 3] (map (fun _ => vzero ex_tuple) xd_gs)
  = dcf_batch_evaluate ex_aes xd_c ex_tuple (map dp_key0 xd_gs) [8; 5; 3] (map (fun _ => vzero ex_tuple) xd_gs) /\
  is_ok (dcf_batch_evaluate ex_aes xd_c ex_tuple (map dp_key0 xd_gs) [8; 5; 3] (map (fun _ => vzero ex_tuple) xd_gs)) = true /\
  is_ok (evaluate_and_apply ex_aes ex3_d (TInt 32) (map gp_key0 ex3_gs) [77; 2 ^ 20 + 9; 3] (fun s vs => (s ++ [vs], true)) 0 []) = true /\
  evaluate_and_apply ex_aes ex3_d (TInt 32) (map gp_key0 ex3_gs) [77; 2 ^ 20 + 9; 3] (fun s vs => (s ++ [vs], true)) 0 []
  = evaluate_and_apply ex_aes ex3_d (TInt 32) (map gp_key0 ex3_gs) [77; 9; 3] (fun s vs => (s ++ [vs], true)) 0 [].
Proof. split; [exact xd_created|]. vm_compute. repeat split. Qed.
