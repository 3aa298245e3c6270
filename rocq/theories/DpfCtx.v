(** Evaluation contexts: an invariant kept by every evaluation function, and what
    EvaluateUntil and EvaluateAt return on contexts that satisfy it. *)
From Coq Require Import List NArith ZArith QArith Lia Bool ZifyBool ZifyNat ZifyN.
From Verif Require Import Base ListUtil ValueTypesModel ValueTypesSpec ValueTypesProofs
  ConvProofs BitsProofs TypeProofs DpfModel DpfTree DpfWf DpfGen DpfEval.
Import ListNotations.
Ltac Zify.zify_post_hook ::= Z.div_mod_to_equations.
Open Scope N_scope.

Section Ctx.
Variable aes : N -> N -> N.
Variable d : dpf.
Hypothesis W : wf d.

Definition lvl (z : Z) : nat := Z.to_nat z.

(** [ctx_inv key c]: every partial evaluation stored in [c] is the node of [key] for
    its prefix. *)
Record ctx_inv (key : dkey) (c : ectx) : Prop := {
  inv_len : length (c_params c) = length (d_params d);
  inv_params : parameters_match (d_params d) (c_params c) = Ok tt;
  inv_key : c_key c = Some key;
  inv_key_ok : key_ok d key;
  inv_prev : (-1 <= c_prev c < Z.of_nat (nlevels d))%Z;
  inv_pl : (0 <= c_plevel c < Z.of_nat (nlevels d))%Z;
  inv_partials : Forall (fun e => pe_prefix e < 2 ^ N.of_nat (h2t d (lvl (c_plevel c))) /\
     (pe_seed e, pe_bit e) = node_at aes key (h2t d (lvl (c_plevel c))) (pe_prefix e)) (c_partials c)
}.

(** Required by ValidateEvaluationContext; can fail after a failed EvaluateAt. *)
Definition pl_ok (c : ectx) : Prop := c_partials c <> [] -> (c_plevel c <= c_prev c)%Z.

Lemma ctx_inv_key : forall key c, ctx_inv key c -> ctx_key c = key.
Proof. intros key c I. unfold ctx_key. rewrite (inv_key _ _ I). auto. Qed.

(** A tree index at tree level [t] can be evaluated from the stored partials. *)
Definition covered (c : ectx) (t : nat) (p : N) : bool :=
  Nat.eqb (length (c_partials c)) 0 || Nat.ltb t (h2t d (lvl (c_plevel c))) ||
  existsb (fun e => pe_prefix e =? N.shiftr p (N.of_nat (t - h2t d (lvl (c_plevel c))))) (c_partials c).

Lemma lookup_partial_spec : forall l key t p,
  Forall (fun e => pe_prefix e < 2 ^ N.of_nat t /\
     (pe_seed e, pe_bit e) = node_at aes key t (pe_prefix e)) l ->
  lookup_partial l p = if existsb (fun e => pe_prefix e =? p) l then Some (node_at aes key t p) else None.
Proof.
  induction l as [|e l IH]; intros key t p HF; cbn [lookup_partial existsb]; auto.
  fcons HF He HF'. destruct He as [_ He]. destruct (N.eqb_spec (pe_prefix e) p) as [E|].
  - cbn. f_equal. rewrite <- E. auto.
  - cbn. apply IH. auto.
Qed.

Lemma partials_consistent_ok : forall l seen key t,
  Forall (fun e => pe_prefix e < 2 ^ N.of_nat t /\
     (pe_seed e, pe_bit e) = node_at aes key t (pe_prefix e)) l ->
  Forall (fun e => pe_prefix e < 2 ^ N.of_nat t /\
     (pe_seed e, pe_bit e) = node_at aes key t (pe_prefix e)) seen ->
  partials_consistent l seen = true.
Proof.
  induction l as [|e l IH]; intros seen key t HF HS; cbn [partials_consistent]; auto.
  fcons HF He HF'. rewrite (lookup_partial_spec seen key t) by auto.
  apply andb_true_iff. split.
  - destruct (existsb _ seen); auto. destruct He as [_ He]. rewrite <- He.
    rewrite N.eqb_refl. destruct (pe_bit e); reflexivity.
  - apply (IH _ key t); auto. apply Forall_app. auto.
Qed.

Lemma shr128_shiftr : forall p n, p < P128 -> shr128 p n = N.shiftr p (N.of_nat n).
Proof.
  intros p n Hp. unfold shr128. destruct (Nat.ltb_spec n 128); auto.
  apply N.bits_inj. intros i. rewrite N.bits_0, N.shiftr_spec'. symmetry. apply testbit_high; auto. lia.
Qed.

(** The context after ComputePartialEvaluations. *)
Definition with_partials (key : dkey) (c : ectx) (prefixes : list N) (h : nat) (update : bool) : ectx :=
  {| c_params := c_params c; c_key := c_key c; c_prev := c_prev c;
     c_partials := if update
        then map (fun p => {| pe_prefix := p; pe_seed := fst (node_at aes key (h2t d h) p);
                              pe_bit := snd (node_at aes key (h2t d h) p) |}) prefixes
        else [];
     c_plevel := Z.of_nat h |}.

Lemma h2t_at : forall z, (0 <= z < Z.of_nat (nlevels d))%Z ->
  atz_or_ub (d_h2t d) z = Ok (h2t d (lvl z)).
Proof.
  intros z Hz. unfold atz_or_ub. destruct (Z.ltb_spec z 0); [lia|].
  unfold at_or_ub. fold (lvl z). rewrite h2t_nth_error; auto. unfold lvl. lia.
Qed.

Lemma mapM_lookup : forall (f : N -> option node) (g : N -> node) (b : N -> bool) l,
  (forall p, In p l -> f p = if b p then Some (g p) else None) ->
  mapM (fun p => match f p with Some n => Ok n | None => Err INVALID_ARGUMENT end) l
  = if forallb b l then Ok (map g l) else Err INVALID_ARGUMENT.
Proof.
  induction l as [|p l IH]; intros H; auto. cbn [mapM forallb map].
  rewrite (H p) by (left; auto). destruct (b p); cbn [bind andb]; auto.
  rewrite IH by (intros; apply H; right; auto). destruct (forallb b l); reflexivity.
Qed.

Lemma compute_partial_eq : forall key c prefixes h update, ctx_inv key c -> (h < nlevels d)%nat ->
  Forall (fun p => p < 2 ^ N.of_nat (h2t d h)) prefixes ->
  compute_partial_evaluations aes d prefixes h update c
  = if forallb (covered c (h2t d h)) prefixes
    then Ok (map (node_at aes key (h2t d h)) prefixes, with_partials key c prefixes h update)
    else Err INVALID_ARGUMENT.
Proof.
  intros key c prefixes h update I Hh HF. unfold compute_partial_evaluations.
  pose proof (inv_pl _ _ I) as Hpl.
  rewrite h2t_at by auto. cbn [bind]. unfold at_or_ub at 1. rewrite h2t_nth_error by auto. cbn [bind].
  rewrite (ctx_inv_key _ _ I).
  pose proof (key_ok_h2t d W key h (inv_key_ok _ _ I) Hh) as Hlen.
  assert (H128 : (h2t d h <= 128)%nat).
  { pose proof (wf_h2t_ld _ W h Hh). pose proof (ld_le_128 d W h). lia. }
  assert (HF128 : Forall (fun p => p < P128) prefixes).
  { eapply Forall_impl; [|exact HF]. cbv beta. intros x Hx. eapply N.lt_le_trans; [exact Hx|].
    apply pow_le_P128. auto. }
  set (t0 := h2t d (lvl (c_plevel c))) in *.
  assert (HE : forall st start, (start <= h2t d h)%nat ->
     st = map (fun p => node_at aes key start (N.shiftr p (N.of_nat (h2t d h - start)))) prefixes ->
     (cws <- subspan (k_cws key) start (h2t d h - start) ;;
      st <- evaluate_seeds aes st prefixes cws ;;
      Ok (st, {| c_params := c_params c; c_key := c_key c; c_prev := c_prev c;
             c_partials := if update
                           then zip2 (fun p (n : node) =>
                                        {| pe_prefix := p; pe_seed := fst n; pe_bit := snd n |})
                                     prefixes st
                           else [];
             c_plevel := Z.of_nat h |}))
     = Ok (map (node_at aes key (h2t d h)) prefixes, with_partials key c prefixes h update)).
  { intros st start Hs ->. rewrite subspan_ok by lia. cbn [bind].
    rewrite evaluate_seeds_walk by (rewrite ?map_length; auto). cbn [bind].
    rewrite zip2_map_r, zip2_same.
    assert (HM : map (fun a => walk aes (map corr_of (firstn (h2t d h - start) (skipn start (k_cws key)))) a
                 (node_at aes key start (N.shiftr a (N.of_nat (h2t d h - start))))) prefixes
             = map (node_at aes key (h2t d h)) prefixes).
    { apply map_ext. intros a. symmetry. apply node_at_split; auto. }
    rewrite HM. unfold with_partials. do 3 f_equal. destruct update; auto.
    rewrite zip2_map_r, zip2_same. reflexivity. }
  unfold covered. fold t0.
  destruct (Nat.eqb_spec (length (c_partials c)) 0) as [E0|E0]; cbn [negb andb orb].
  - cbn [bind]. replace (forallb (fun _ => true) prefixes) with true
      by (clear; induction prefixes; auto).
    apply HE; [lia|]. apply map_ext. intros p. unfold node_at. reflexivity.
  - destruct (Nat.leb_spec t0 (h2t d h)) as [Hle|Hgt].
    + replace (Nat.ltb (h2t d h) t0) with false by (symmetry; apply Nat.ltb_ge; auto). cbn [orb].
      rewrite (partials_consistent_ok _ _ key t0) by (try apply (inv_partials _ _ I); auto).
      cbn [check bind].
      rewrite (mapM_lookup (fun p => lookup_partial (c_partials c) (shr128 p (h2t d h - t0)))
        (fun p => node_at aes key t0 (N.shiftr p (N.of_nat (h2t d h - t0))))
        (fun p => existsb (fun e => pe_prefix e =? N.shiftr p (N.of_nat (h2t d h - t0))) (c_partials c))).
      2:{ intros p Hp. rewrite Forall_forall in HF128. rewrite shr128_shiftr by auto.
          apply lookup_partial_spec. apply (inv_partials _ _ I). }
      destruct (forallb _ prefixes) eqn:Ef; cbn [bind]; auto.
    + replace (Nat.ltb (h2t d h) t0) with true by (symmetry; apply Nat.ltb_lt; auto). cbn [orb bind].
      replace (forallb (fun _ => true) prefixes) with true by (clear; induction prefixes; auto).
      apply HE; [lia|]. apply map_ext. intros p. unfold node_at. reflexivity.
Qed.

Lemma with_partials_inv : forall key c prefixes h update prev, ctx_inv key c -> (h < nlevels d)%nat ->
  Forall (fun p => p < 2 ^ N.of_nat (h2t d h)) prefixes ->
  (-1 <= prev < Z.of_nat (nlevels d))%Z ->
  ctx_inv key (with_prev (with_partials key c prefixes h update) prev).
Proof.
  intros key c prefixes h update prev I Hh HF Hp. constructor; cbn; try apply I; try lia.
  unfold lvl. rewrite Nat2Z.id. destruct update; [|constructor].
  rewrite Forall_map. eapply Forall_impl; [|exact HF]. cbn. intros p Hlt. split; auto.
  destruct (node_at aes key (h2t d h) p); reflexivity.
Qed.

(** Fresh contexts. *)
Lemma parameters_match_refl_gen : forall ps,
  Forall (fun p => parameters_are_equal p p = Ok true) ps -> parameters_match ps ps = Ok tt.
Proof.
  induction ps as [|p ps IH]; intros HF; cbn; auto. fcons HF Hp HF'. rewrite Hp. cbn. auto.
Qed.

Lemma create_context_inv : forall key c, parameters_match (d_params d) (d_params d) = Ok tt ->
  create_evaluation_context d key = Ok c -> ctx_inv key c /\ c_prev c = (-1)%Z /\ c_partials c = [].
Proof.
  intros key c HP H. unfold create_evaluation_context in H. bind_inv H. destruct a. inv H.
  pose proof (wf_pos _ W). split; [|cbn; auto]. constructor; cbn; auto; try lia.
Qed.

(** * EvaluateUntil *)

(** Nodes of the expansion below tree indices [tis]. *)
Lemma node_at_low : forall key a t ti i, (a <= t)%nat -> (t <= length (k_cws key))%nat ->
  i < 2 ^ N.of_nat (t - a) ->
  walk aes (map corr_of (firstn (t - a) (skipn a (k_cws key)))) i (node_at aes key a ti)
  = node_at aes key t (ti * 2 ^ N.of_nat (t - a) + i).
Proof.
  intros key a t ti i Ha Ht Hi. rewrite (node_at_split aes key a t) by auto.
  assert (H0 : 2 ^ N.of_nat (t - a) <> 0) by (apply N.pow_nonzero; lia).
  assert (HS : N.shiftr (ti * 2 ^ N.of_nat (t - a) + i) (N.of_nat (t - a)) = ti).
  { rewrite N.shiftr_div_pow2. symmetry. apply N.div_unique with i; auto. lia. }
  rewrite HS. apply walk_ext. intros j Hj.
  rewrite map_length, firstn_length, skipn_length in Hj.
  rewrite <- (N.mod_pow2_bits_low (ti * 2 ^ N.of_nat (t - a) + i) (N.of_nat (t - a))) by lia.
  rewrite N.add_comm, N.mod_add by auto. rewrite N.mod_small by auto. reflexivity.
Qed.

Lemma expand_nodes : forall key a t tis, (a <= t)%nat -> (t <= length (k_cws key))%nat ->
  fold_left (fun s cw => expand_level aes cw s) (firstn (t - a) (skipn a (k_cws key)))
    (map (node_at aes key a) tis)
  = map (node_at aes key t) (flat_map (fun ti => range (ti * 2 ^ N.of_nat (t - a)) (2 ^ (t - a))) tis).
Proof.
  intros key a t tis Ha Ht. rewrite expand_flat, flat_map_map, <- flat_map_map'.
  apply flat_map_ext_in. intros ti _.
  rewrite firstn_length, skipn_length, Nat.min_l by lia. rewrite below_range.
  rewrite <- (N.add_0_r (ti * 2 ^ N.of_nat (t - a))), range_shift, map_map.
  apply map_ext_in. intros i Hi. apply range_in in Hi. rewrite pow2_nat_N in Hi.
  apply node_at_low; auto. lia.
Qed.

(** The prefix map refers to every prefix's tree index and block index. *)
Lemma index_of_spec : forall x l k, index_of x l = Some k -> nth_error l k = Some x.
Proof.
  induction l as [|y l IH]; intros k H; cbn in H; [discriminate|].
  destruct (N.eqb_spec y x) as [->|]; [inv H; auto|].
  destruct (index_of x l); inv H. cbn. auto.
Qed.

Lemma build_prefix_map_spec : forall prefixes h tis0 tis pm,
  build_prefix_map d prefixes h tis0 = (tis, pm) ->
  (exists suf, tis = tis0 ++ suf /\ forall t, In t suf -> exists p, In p prefixes /\ t = domain_to_tree_index d p h) /\
  length pm = length prefixes /\
  (forall i p m, nth_error prefixes i = Some p -> nth_error pm i = Some m ->
     nth_error tis (fst m) = Some (domain_to_tree_index d p h) /\ snd m = domain_to_block_index d p h).
Proof.
  clear - d.
  induction prefixes as [|p prefixes IH]; intros h tis0 tis pm H; cbn [build_prefix_map] in H.
  - inv H. split; [exists []; rewrite app_nil_r; split; auto; intros t []|]. split; auto.
    intros [|i]; discriminate.
  - destruct (index_of (domain_to_tree_index d p h) tis0) as [k|] eqn:Ek.
    + destruct (build_prefix_map d prefixes h tis0) as [tis' pm'] eqn:EB. inv H.
      apply IH in EB. destruct EB as ((suf & -> & Hs) & HL & HN).
      split; [exists suf; split; auto; intros t Ht; destruct (Hs t Ht) as (q & Hq & ->); exists q; split; auto; right; auto|].
      split; [cbn; lia|]. intros [|i] q m Hq Hm; cbn in Hq, Hm.
      * inv Hq. inv Hm. cbn. split; auto. apply index_of_spec in Ek.
        rewrite nth_error_app1; auto. apply nth_error_Some. congruence.
      * eauto.
    + destruct (build_prefix_map d prefixes h (tis0 ++ [domain_to_tree_index d p h])) as [tis' pm'] eqn:EB. inv H.
      apply IH in EB. destruct EB as ((suf & -> & Hs) & HL & HN).
      split.
      { exists (domain_to_tree_index d p h :: suf). rewrite <- app_assoc. split; auto.
        intros t [<-|Ht]; [exists p; split; auto; left; auto|].
        destruct (Hs t Ht) as (q & Hq & ->); exists q; split; auto; right; auto. }
      split; [cbn; lia|]. intros [|i] q m Hq Hm; cbn in Hq, Hm.
      * inv Hq. inv Hm. cbn. split; auto. rewrite <- app_assoc. rewrite nth_error_app2, Nat.sub_diag by lia. auto.
      * eauto.
Qed.

Section Level.
Variables (h : nat) (T : cty).
Hypothesis Hh : (h < nlevels d)%nat.
Hypothesis HT : level_type d h T.
Hypothesis Hen : enough_bytes T (16 * blocks d h).

Lemma domain_index_join : forall t j, (j < 2 ^ block_bits d h)%nat ->
  let x := t * 2 ^ N.of_nat (block_bits d h) + N.of_nat j in
  domain_to_tree_index d x h = t /\ domain_to_block_index d x h = j.
Proof.
  intros t j Hj x. unfold domain_to_tree_index, domain_to_block_index. rewrite N.land_ones, N.shiftr_div_pow2.
  assert (Hp : 2 ^ N.of_nat (block_bits d h) <> 0) by (apply N.pow_nonzero; lia).
  assert (Hj' : N.of_nat j < 2 ^ N.of_nat (block_bits d h)) by (rewrite <- pow2_nat_N; lia).
  unfold x. split.
  - symmetry. apply N.div_unique with (N.of_nat j); auto. lia.
  - rewrite N.add_comm, N.mod_add by auto. rewrite N.mod_small by auto. lia.
Qed.

(** Correcting all elements of all nodes. *)
Lemma corrected_nodes : forall key corrs ts, length corrs = elements_per_block T ->
  mapM (fun i_st : nat * node =>
           elements <- convert_bytes T (block_bytes (blocks d h)
               (hash_expanded_seeds aes (blocks d h) (map fst (map (node_at aes key (h2t d h)) ts))) (fst i_st)) ;;
           mapM (correct_element T (k_party key) (snd (snd i_st)) elements corrs) (seq 0 (2 ^ block_bits d h)))
    (combine (seq 0 (length (map (node_at aes key (h2t d h)) ts))) (map (node_at aes key (h2t d h)) ts))
  = Ok (map (fun t => map (share aes d T key h corrs)
              (range (t * 2 ^ N.of_nat (block_bits d h)) (2 ^ block_bits d h))) ts).
Proof.
  intros key corrs ts HL.
  rewrite (mapM_enum _ _ _ (fun n => map (bshare aes d T key h corrs n) (seq 0 (2 ^ block_bits d h)))).
  - f_equal. rewrite map_map. apply map_ext. intros t. unfold range. rewrite map_map.
    apply map_ext_in. intros j Hj. apply in_seq in Hj. unfold share.
    destruct (domain_index_join t j) as [H1 H2]; [lia|]. cbv zeta in H1, H2. rewrite H1, H2. reflexivity.
  - intros i n Hi. cbn [fst snd].
    assert (Hn : nth_error (map fst (map (node_at aes key (h2t d h)) ts)) i = Some (fst n))
      by (apply nth_error_map_some; auto).
    rewrite (block_bytes_node aes d h _ _ _ Hn).
    destruct (node_elems_ok aes d h T HT Hen n) as (He & _). rewrite He. cbn [bind].
    apply mapM_map_ok. intros j Hj. apply in_seq in Hj.
    apply correct_element_bshare; auto. pose proof (wf_epb _ W h T HT). lia.
Qed.

Lemma corrected_flat : forall key corrs lo k,
  concat (map (fun t => map (share aes d T key h corrs)
              (range (t * 2 ^ N.of_nat (block_bits d h)) (2 ^ block_bits d h))) (range lo k))
  = map (share aes d T key h corrs) (range (lo * 2 ^ N.of_nat (block_bits d h)) (k * 2 ^ block_bits d h)).
Proof.
  intros. rewrite concat_map_flat_map, flat_map_map'. f_equal.
  rewrite <- pow2_nat_N. apply flat_map_range.
Qed.

End Level.

(** Reading one prefix's outputs from the concatenated blocks. *)
Lemma skipn_flat_map_range : forall (f : N -> cval) M tis a b n t,
  nth_error tis a = Some t -> (b + n <= M)%nat ->
  firstn n (skipn (a * M + b) (flat_map (fun t => map f (range (t * N.of_nat M) M)) tis))
  = map f (range (t * N.of_nat M + N.of_nat b) n).
Proof.
  induction tis as [|u tis IH]; intros a b n t Ha Hb; [destruct a; discriminate|].
  cbn [flat_map]. destruct a as [|a]; cbn in Ha.
  - inv Ha. cbn [Nat.mul Nat.add].
    replace M with (b + (n + (M - b - n)))%nat at 2 by lia. rewrite !range_app, !map_app, <- !app_assoc.
    rewrite skipn_app_exact by (rewrite map_length, range_length; auto).
    apply firstn_app_exact. rewrite map_length, range_length; auto.
  - rewrite skipn_app, map_length, range_length.
    rewrite skipn_all2 by (rewrite map_length, range_length; cbn; lia).
    replace (S a * M + b - M)%nat with (a * M + b)%nat by (cbn; lia). cbn [app]. auto.
Qed.

Lemma flat_map_range_length : forall (f : N -> cval) M tis,
  length (flat_map (fun t => map f (range (t * N.of_nat M) M)) tis) = (length tis * M)%nat.
Proof.
  induction tis as [|t tis IH]; auto. cbn [flat_map length Nat.mul].
  rewrite app_length, map_length, range_length, IH. auto.
Qed.

(** previous_log_domain_size, 0 before the first call. *)
Definition prev_ld (prefixes : list N) (c : ectx) : nat :=
  if Nat.eqb (length prefixes) 0 then 0%nat else ld d (lvl (c_prev c)).
Definition prev_tree (prefixes : list N) (c : ectx) : nat :=
  if Nat.eqb (length prefixes) 0 then 0%nat else h2t d (lvl (c_prev c)).

(** The explicit argument conditions of EvaluateUntil. *)
Record until_args (T : cty) (h : nat) (prefixes : list N) (c : ectx) : Prop := {
  ua_level : (h < nlevels d)%nat;
  ua_type : level_type d h T;
  ua_order : (c_prev c < Z.of_nat h)%Z;
  ua_prefixes : prefixes = [] <-> (c_prev c < 0)%Z;
  ua_range : Forall (fun p => p < 2 ^ N.of_nat (ld d (lvl (c_prev c)))) prefixes;
  ua_gap : (ld d h - prev_ld prefixes c < 63)%nat;
  ua_size : N.of_nat (length prefixes) * 2 ^ N.of_nat (ld d h - prev_ld prefixes c) < 2 ^ 63
}.

Lemma context_valid : forall key c, ctx_inv key c -> pl_ok c -> (c_prev c < Z.of_nat (nlevels d) - 1)%Z ->
  validate_evaluation_context d c = Ok tt.
Proof.
  intros key c I Hplok Hp. unfold validate_evaluation_context.
  rewrite (inv_len _ _ I), Nat.eqb_refl. cbn [check bind]. rewrite (inv_params _ _ I). cbn [bind].
  rewrite (inv_key _ _ I). cbn [bind]. pose proof (inv_key_ok _ _ I) as HK. unfold key_ok in HK. rewrite HK. cbn [bind].
  fold (nlevels d).
  replace (Z.of_nat (nlevels d) - 1 <=? c_prev c)%Z with false by lia. cbn [negb check bind].
  destruct (Nat.eqb_spec (length (c_partials c)) 0) as [E|E]; cbn [negb andb check]; auto.
  assert (c_partials c <> []) by (intros HX; rewrite HX in E; auto).
  pose proof (Hplok H). replace (c_prev c <? c_plevel c)%Z with false by lia. reflexivity.
Qed.

Lemma until_checks_ok : forall key c T h prefixes, ctx_inv key c -> pl_ok c -> until_args T h prefixes c ->
  evaluate_until_checks d T (Z.of_nat h) prefixes c = Ok (ld d h - prev_ld prefixes c)%nat.
Proof.
  intros key c T h prefixes I Hplok A. destruct A as [Hh HT Ho Hp Hr Hg Hs]. unfold evaluate_until_checks.
  rewrite (context_valid key) by (auto; lia). cbn [bind].
  replace ((Z.of_nat h <? 0)%Z || (Z.of_nat (nlevels d) <=? Z.of_nat h)%Z) with false by lia. cbn [negb check bind].
  destruct HT as (Hok & p & Hpn & HD).
  assert (HA : forall q k, nth_error (d_params d) k = Some q -> atz_or_ub (d_params d) (Z.of_nat k) = Ok q).
  { intros q k Hk. unfold atz_or_ub. destruct (Z.ltb_spec (Z.of_nat k) 0); [lia|].
    rewrite Nat2Z.id. unfold at_or_ub. rewrite Hk. auto. }
  rewrite (HA p h Hpn). cbn [bind].
  apply value_types_are_equal_denotes in HD; auto. rewrite HD. cbn [check bind].
  replace (Z.of_nat h <=? c_prev c)%Z with false by lia. cbn [negb check bind].
  assert (HE : Nat.eqb (length prefixes) 0 = (c_prev c <? 0)%Z).
  { apply eq_true_iff_eq. rewrite Nat.eqb_eq, Z.ltb_lt. rewrite <- Hp. destruct prefixes; cbn; split; congruence. }
  rewrite HE. rewrite Bool.eqb_reflx. cbn [check bind].
  unfold prev_ld in *. rewrite HE in *.
  assert (HM : (N.of_nat (length prefixes) * 2 ^ N.of_nat (ld d h - (if (c_prev c <? 0)%Z then 0 else ld d (lvl (c_prev c))))) mod P128
     = N.of_nat (length prefixes) * 2 ^ N.of_nat (ld d h - (if (c_prev c <? 0)%Z then 0 else ld d (lvl (c_prev c))))).
  { apply N.mod_small. eapply N.lt_trans; [exact Hs|]. reflexivity. }
  destruct (Z.ltb_spec (c_prev c) 0) as [Hneg|Hpos].
  - cbn [bind]. rewrite Nat2Z.id. destruct (Nat.leb_spec 63 (ld d h - 0)); [lia|]. cbn [negb check bind].
    rewrite HM. change (2 ^ 63) with 9223372036854775808 in Hs.
    destruct (N.ltb_spec 9223372036854775807 (N.of_nat (length prefixes) * 2 ^ N.of_nat (ld d h - 0))); [lia|]. reflexivity.
  - assert (Hpl : (lvl (c_prev c) < nlevels d)%nat) by (unfold lvl; lia).
    destruct (nth_error (d_params d) (lvl (c_prev c))) as [q|] eqn:Eq.
    2:{ apply nth_error_None in Eq. unfold nlevels in Hpl. lia. }
    assert (Hat : atz_or_ub (d_params d) (c_prev c) = Ok q).
    { rewrite <- (HA q (lvl (c_prev c)) Eq). f_equal. unfold lvl. lia. }
    rewrite Hat. cbn [bind]. destruct (wf_ld_z _ W _ _ Eq) as [Hq Hld]. rewrite <- Hld.
    assert (HI : iterM (fun prefix => check (negb (Nat.ltb (ld d (lvl (c_prev c))) 128
        && (2 ^ N.of_nat (ld d (lvl (c_prev c))) <=? prefix))) INVALID_ARGUMENT) prefixes = Ok tt).
    { apply iterM_ok. eapply Forall_impl; [|exact Hr]. cbv beta. intros x Hx. apply check_ok.
      replace (2 ^ N.of_nat (ld d (lvl (c_prev c))) <=? x) with false by (symmetry; apply N.leb_gt; auto).
      rewrite andb_false_r. auto. }
    rewrite HI. cbn [bind]. rewrite Nat2Z.id.
    destruct (Nat.leb_spec 63 (ld d h - ld d (lvl (c_prev c)))); [lia|]. cbn [negb check bind].
    rewrite HM. change (2 ^ 63) with 9223372036854775808 in Hs.
    destruct (N.ltb_spec 9223372036854775807 (N.of_nat (length prefixes) * 2 ^ N.of_nat (ld d h - ld d (lvl (c_prev c))))); [lia|]. reflexivity.
Qed.

(** The domain elements below a list of prefixes, in order. *)
Definition until_points (h : nat) (prefixes : list N) (c : ectx) : list N :=
  if Nat.eqb (length prefixes) 0 then range 0 (2 ^ ld d h)
  else flat_map (fun p => range (p * 2 ^ N.of_nat (ld d h - ld d (lvl (c_prev c))))
                               (2 ^ (ld d h - ld d (lvl (c_prev c))))) prefixes.

(** The expansion fits into memory and into the int that counts blocks per prefix. *)
Definition until_memory (h : nat) (prefixes : list N) (c : ectx) : Prop :=
  let k := (h2t d h - prev_tree prefixes c)%nat in
  (prefixes = [] \/ (k < 31)%nat) /\ N.of_nat (Nat.max 1 (length prefixes)) * 2 ^ N.of_nat k < 2 ^ 60.

(** The context after a successful EvaluateUntil. *)
Definition until_ctx (key : dkey) (h : nat) (prefixes : list N) (c : ectx) : ectx :=
  if Nat.eqb (length prefixes) 0 then with_prev c (Z.of_nat h)
  else with_prev (with_partials key c
         (fst (build_prefix_map d prefixes (lvl (c_prev c)) [])) (lvl (c_prev c))
         (Nat.ltb h (nlevels d - 1))) (Z.of_nat h).

(** All prefixes extend stored partial evaluations. *)
Definition until_covered (prefixes : list N) (c : ectx) : bool :=
  forallb (covered c (h2t d (lvl (c_prev c))))
    (map (fun p => domain_to_tree_index d p (lvl (c_prev c))) prefixes).

Lemma tis_count : forall prefixes h tis0 tis pm,
  build_prefix_map d prefixes h tis0 = (tis, pm) -> (length tis <= length tis0 + length prefixes)%nat.
Proof.
  clear - d.
  induction prefixes as [|p prefixes IH]; intros h tis0 tis pm H; cbn [build_prefix_map] in H.
  - inv H. cbn. lia.
  - destruct (index_of _ tis0).
    + destruct (build_prefix_map d prefixes h tis0) as [t' p'] eqn:E. inv H. apply IH in E. cbn. lia.
    + destruct (build_prefix_map d prefixes h (tis0 ++ _)) as [t' p'] eqn:E. inv H. apply IH in E.
      rewrite app_length in E. cbn in *. lia.
Qed.

Lemma expand_seeds_ok : forall st cws, N.of_nat (length st) * 2 ^ N.of_nat (length cws) < 2 ^ 60 ->
  expand_seeds aes st cws = Ok (fold_left (fun s cw => expand_level aes cw s) cws st).
Proof.
  intros st cws H. unfold expand_seeds.
  assert (2 ^ 60 < P64) by reflexivity.
  destruct (N.leb_spec P64 (N.of_nat (length st) * 2 ^ N.of_nat (length cws))); [lia|].
  destruct (N.leb_spec (2 ^ 60) (N.of_nat (length st) * 2 ^ N.of_nat (length cws))); [lia|]. auto.
Qed.

Lemma evaluate_until_eq : forall key c T h prefixes, ctx_inv key c -> pl_ok c -> until_args T h prefixes c ->
  enough_bytes T (16 * blocks d h) -> until_memory h prefixes c ->
  evaluate_until aes d T (Z.of_nat h) prefixes c
  = if until_covered prefixes c
    then ((corrs <- values_to_array T (key_values d key h) ;;
           Ok (map (share aes d T key h corrs) (until_points h prefixes c))),
          until_ctx key h prefixes c)
    else (Err INVALID_ARGUMENT, c).
Proof.
  intros key c T h prefixes I Hplok A Hen HM. unfold evaluate_until.
  rewrite (until_checks_ok key) by auto. rewrite Nat2Z.id.
  destruct A as [Hh HT Ho Hp Hr Hg Hs].
  pose proof (inv_key_ok _ _ I) as HK. pose proof (key_ok_h2t d W key h HK Hh) as Hlen.
  pose proof (wf_h2t_ld _ W h Hh) as Hhl.
  fold (lvl (c_prev c)).
  destruct (build_prefix_map d prefixes (lvl (c_prev c)) []) as [tis pm] eqn:EB.
  pose proof (tis_count _ _ _ _ _ EB) as Htc. cbn [length Nat.add] in Htc.
  destruct HM as [HM31 HM60].
  unfold until_points, until_ctx, until_covered. unfold prev_tree, prev_ld in *.
  destruct (Nat.eqb_spec (length prefixes) 0) as [E|E].
  - (* first call *)
    destruct prefixes; [|discriminate]. cbn in EB. inv EB. cbn [map forallb].
    unfold expand_and_update_context. cbn [length Nat.eqb]. rewrite (ctx_inv_key _ _ I).
    unfold at_or_ub at 1. rewrite h2t_nth_error by auto. cbn [bind].
    rewrite subspan_ok by lia. cbn [bind skipn]. rewrite Nat.sub_0_r in *.
    rewrite expand_seeds_ok.
    2:{ rewrite firstn_length, Nat.min_l by lia. exact HM60. }
    assert (HR : fold_left (fun s cw => expand_level aes cw s) (firstn (h2t d h) (k_cws key)) [(key_seed key, key_bit key)]
       = map (node_at aes key (h2t d h)) (range 0 (2 ^ h2t d h))).
    { pose proof (expand_nodes key 0 (h2t d h) [0] ltac:(lia) Hlen) as HX.
      rewrite Nat.sub_0_r in HX. cbn [skipn map flat_map] in HX. rewrite app_nil_r in HX.
      rewrite N.mul_0_l in HX. exact HX. }
    rewrite HR. cbn [bind]. 
    assert (HCK : ctx_key (with_prev c (Z.of_nat h)) = key).
    { unfold ctx_key, with_prev. cbn. rewrite (inv_key _ _ I). auto. }
    rewrite HCK. rewrite value_correction_values by (auto using key_ok_len).
    destruct (values_to_array T (key_values d key h)) as [corrs| | |] eqn:EV; cbn [bind]; auto.
    pose proof (values_to_array_len d h T Hh HT _ _ EV) as [HLc _].
    rewrite corrected_nodes by auto. cbn [bind]. rewrite corrected_flat. rewrite N.mul_0_l.
    do 4 f_equal. rewrite <- Nat.pow_add_r. f_equal. unfold block_bits. lia.
  - (* subsequent calls *)
    destruct HM31 as [->|HM31]; [cbn in E; congruence|].
    assert (Hpos : (0 <= c_prev c)%Z).
    { destruct (Z.lt_ge_cases (c_prev c) 0) as [HX|]; auto. apply Hp in HX. subst prefixes. cbn in E. congruence. }
    set (h0 := lvl (c_prev c)) in *. rewrite EB. cbn [fst].
    assert (Hh0 : (h0 < h)%nat) by (unfold h0, lvl; lia).
    pose proof (wf_h2t_mono _ W h0 h Hh0 Hh) as Hmono. pose proof (wf_ld_mono _ W h0 h Hh0 Hh) as Hlmono.
    pose proof (wf_h2t_ld _ W h0 ltac:(lia)) as Hhl0.
    destruct (build_prefix_map_spec _ _ _ _ _ EB) as ((suf & Hsuf & Hin) & HLpm & HN).
    cbn [app] in Hsuf. subst suf.
    assert (HF : Forall (fun p => p < 2 ^ N.of_nat (h2t d h0)) tis).
    { apply Forall_forall. intros t Ht. destruct (Hin t Ht) as (p & Hpin & ->).
      apply tree_index_lt; auto; try lia. rewrite Forall_forall in Hr. auto. }
    assert (Hcov : forallb (covered c (h2t d h0)) (map (fun p => domain_to_tree_index d p h0) prefixes)
                   = forallb (covered c (h2t d h0)) tis).
    { apply eq_true_iff_eq. rewrite !forallb_forall. split.
      - intros HX t Ht. apply HX. destruct (Hin t Ht) as (p & Hpin & ->). apply in_map_iff. eauto.
      - intros HX t Ht. apply in_map_iff in Ht. destruct Ht as (p & <- & Hpin).
        apply In_nth_error in Hpin. destruct Hpin as (i & Hi).
        destruct (nth_error pm i) as [m|] eqn:Em.
        + destruct (HN _ _ _ Hi Em) as [HX1 _]. apply HX. eapply nth_error_In; eauto.
        + apply nth_error_None in Em. assert (nth_error prefixes i <> None) by congruence.
          apply nth_error_Some in H. lia. }
    rewrite Hcov. clear Hcov.
    assert (Htne : length tis <> 0%nat).
    { destruct prefixes as [|p0 prefixes']; [cbn in E; congruence|].
      destruct pm as [|m pm]; [discriminate|].
      destruct (HN 0%nat p0 m eq_refl eq_refl) as [HX1 _]. intros HX. destruct tis; [|discriminate].
      destruct (fst m); discriminate. }
    unfold expand_and_update_context.
    destruct (Nat.eqb_spec (length tis) 0) as [|_]; [lia|].
    fold (lvl (c_prev c)). fold h0.
    rewrite (compute_partial_eq key) by (auto; lia).
    destruct (forallb (covered c (h2t d h0)) tis); cbn [bind]; auto.
    set (c1 := with_partials key c tis h0 (Nat.ltb h (nlevels d - 1))).
    assert (Hc1 : c_prev c1 = c_prev c) by reflexivity. rewrite Hc1.
    rewrite h2t_at by lia. cbn [bind]. fold h0.
    assert (HCK : ctx_key c1 = key).
    { unfold ctx_key, c1, with_partials. cbn. rewrite (inv_key _ _ I). auto. }
    rewrite HCK. unfold at_or_ub at 1. rewrite h2t_nth_error by auto. cbn [bind].
    rewrite subspan_ok by lia. cbn [bind].
    set (k := (h2t d h - h2t d h0)%nat) in *.
    assert (Hsk : length (firstn k (skipn (h2t d h0) (k_cws key))) = k).
    { rewrite firstn_length, skipn_length. unfold k. lia. }
    rewrite expand_seeds_ok.
    2:{ rewrite map_length, Hsk. eapply N.le_lt_trans; [|exact HM60].
        apply N.mul_le_mono_r. lia. }
    unfold k. rewrite expand_nodes by lia. fold k. cbn [bind].
    assert (HCK2 : ctx_key (with_prev c1 (Z.of_nat h)) = key) by exact HCK.
    rewrite HCK2. rewrite value_correction_values by (auto using key_ok_len). cbn [fst].
    fold c1.
    destruct (values_to_array T (key_values d key h)) as [corrs| | |] eqn:EV; cbn [bind]; auto.
    pose proof (values_to_array_len d h T Hh HT _ _ EV) as [HLc _].
    rewrite corrected_nodes by auto. cbn [bind].
    set (ts := flat_map (fun ti => range (ti * 2 ^ N.of_nat k) (2 ^ k)) tis).
    set (gap := (ld d h - ld d h0)%nat) in *.
    set (M := (2 ^ k * 2 ^ block_bits d h)%nat).
    assert (HMeq : M = (2 ^ block_bits d h0 * 2 ^ gap)%nat).
    { unfold M. rewrite <- !Nat.pow_add_r. f_equal. unfold k, gap, block_bits. lia. }
    assert (Hflat : concat (map (fun t => map (share aes d T key h corrs)
              (range (t * 2 ^ N.of_nat (block_bits d h)) (2 ^ block_bits d h))) ts)
       = flat_map (fun t => map (share aes d T key h corrs) (range (t * N.of_nat M) M)) tis).
    { unfold ts. rewrite concat_map_flat_map, flat_map_flat_map. apply flat_map_ext_in. intros t _.
      rewrite <- concat_map_flat_map, corrected_flat. do 2 f_equal.
      rewrite <- !pow2_nat_N. unfold M. lia. }
    rewrite Hflat.
    assert (Hlts : length (map (node_at aes key (h2t d h)) ts) = (length tis * 2 ^ k)%nat).
    { rewrite map_length. unfold ts. clear. induction tis as [|t tis IH]; auto. cbn [flat_map length Nat.mul].
      rewrite app_length, range_length, IH. auto. }
    rewrite Hlts. replace (length tis * 2 ^ k / length tis)%nat with (2 ^ k)%nat
      by (rewrite Nat.mul_comm, Nat.div_mul by lia; auto).
    assert (Hk31 : (0 < Z.of_nat (2 ^ k) < 2 ^ 31)%Z).
    { split; [pose proof (pow2_nat_pos k); lia|].
      rewrite Nat2Z.inj_pow. change (Z.of_nat 2) with 2%Z. apply Z.pow_lt_mono_r; lia. }
    assert (Hi32 : to_int32 (Z.of_nat (2 ^ k)) = Z.of_nat (2 ^ k)).
    { unfold to_int32. rewrite Z.mod_small by lia. destruct (Z.ltb_spec (Z.of_nat (2 ^ k)) 2147483648); lia. }
    rewrite Hi32.
    set (l := flat_map (fun t => map (share aes d T key h corrs) (range (t * N.of_nat M) M)) tis).
    assert (HLl : length l = (length tis * M)%nat) by apply flat_map_range_length.
    assert (HP : mapM (fun m : nat * nat => copy_range l
               (Z.of_nat (fst m) * Z.of_nat (2 ^ k) * Z.of_nat (2 ^ block_bits d h)
                + Z.of_nat (snd m) * Z.of_nat (2 ^ gap)) (2 ^ gap)) pm
      = Ok (map (fun p => map (share aes d T key h corrs) (range (p * 2 ^ N.of_nat gap) (2 ^ gap))) prefixes)).
    { apply mapM_ok_iff.
      assert (HG : forall pm prefixes, length pm = length prefixes ->
         (forall i p m, nth_error prefixes i = Some p -> nth_error pm i = Some m ->
            nth_error tis (fst m) = Some (domain_to_tree_index d p h0) /\ snd m = domain_to_block_index d p h0) ->
         Forall2 (fun m r => copy_range l
               (Z.of_nat (fst m) * Z.of_nat (2 ^ k) * Z.of_nat (2 ^ block_bits d h)
                + Z.of_nat (snd m) * Z.of_nat (2 ^ gap)) (2 ^ gap) = Ok r) pm
            (map (fun p => map (share aes d T key h corrs) (range (p * 2 ^ N.of_nat gap) (2 ^ gap))) prefixes)).
      2:{ apply HG; auto. }
      clear HN HLpm EB Htc HM60 Hin Hr Hp Hs E. intros pm0. induction pm0 as [|m pm0 IH]; intros [|p ps] HL HN;
        try discriminate; cbn [map]; constructor.
      - destruct (HN 0%nat p m eq_refl eq_refl) as [H1 H2].
        assert (Hfm : (fst m < length tis)%nat) by (apply nth_error_Some; congruence).
        assert (Hbi : (snd m < 2 ^ block_bits d h0)%nat) by (rewrite H2; apply block_index_bound; lia).
        unfold copy_range.
        set (start := (fst m * M + snd m * 2 ^ gap)%nat).
        assert (Hst : (Z.of_nat (fst m) * Z.of_nat (2 ^ k) * Z.of_nat (2 ^ block_bits d h)
                + Z.of_nat (snd m) * Z.of_nat (2 ^ gap))%Z = Z.of_nat start).
        { unfold start, M. rewrite Nat2Z.inj_add, !Nat2Z.inj_mul. lia. }
        rewrite Hst.
        assert (Hbound : (snd m * 2 ^ gap + 2 ^ gap <= M)%nat).
        { rewrite HMeq. nia. }
        assert (Hend : (start + 2 ^ gap <= length l)%nat).
        { rewrite HLl. unfold start. nia. }
        replace ((Z.of_nat start <? 0)%Z || (Z.of_nat (length l) <? Z.of_nat start + Z.of_nat (2 ^ gap))%Z) with false by lia.
        rewrite Nat2Z.id. f_equal. unfold l, start.
        rewrite (skipn_flat_map_range _ M tis _ _ _ _ H1 Hbound). do 2 f_equal.
        rewrite H2. unfold domain_to_tree_index, domain_to_block_index.
        rewrite N.land_ones, N.shiftr_div_pow2. rewrite HMeq.
        rewrite !Nat2N.inj_mul, !pow2_nat_N, N2Nat.id.
        assert (Hp0 : 2 ^ N.of_nat (block_bits d h0) <> 0) by (apply N.pow_nonzero; lia).
        rewrite (N.div_mod p (2 ^ N.of_nat (block_bits d h0))) at 3 by auto. lia.
      - apply IH; [cbn in HL; lia|]. intros i q m' Hq Hm'. apply (HN (S i)); auto. }
    rewrite HP. cbn [bind]. f_equal. f_equal.
    rewrite concat_map_flat_map, flat_map_map'. reflexivity.
Qed.

Lemma until_ctx_inv : forall key c T h prefixes, ctx_inv key c -> until_args T h prefixes c ->
  ctx_inv key (until_ctx key h prefixes c).
Proof.
  intros key c T h prefixes I A. destruct A as [Hh HT Ho Hp Hr Hg Hs]. unfold until_ctx.
  destruct (Nat.eqb_spec (length prefixes) 0) as [E|E].
  - destruct I as [i1 i2 i3 i4 i5 i6 i7]. constructor; cbn; auto; lia.
  - assert (Hpos : (0 <= c_prev c)%Z).
    { destruct (Z.lt_ge_cases (c_prev c) 0) as [HX|]; auto. apply Hp in HX. subst prefixes. cbn in E. congruence. }
    assert (lvl (c_prev c) < h)%nat by (unfold lvl; lia).
    apply with_partials_inv; auto; try lia.
    destruct (build_prefix_map d prefixes (lvl (c_prev c)) []) as [tis pm] eqn:EB. cbn [fst].
    destruct (build_prefix_map_spec _ _ _ _ _ EB) as ((suf & Hsuf & Hin) & _).
    cbn [app] in Hsuf. subst suf. apply Forall_forall. intros t Ht. destruct (Hin t Ht) as (p & Hpin & ->).
    apply tree_index_lt; auto; try lia. rewrite Forall_forall in Hr. auto.
Qed.

(** * EvaluateAt on a context *)
Definition at_covered (h : nat) (points : list N) (c : ectx) : bool :=
  forallb (covered c (h2t d h)) (map (fun x => domain_to_tree_index d x h) points).
Definition at_ctx (key : dkey) (h : nat) (points : list N) (c : ectx) : ectx :=
  with_partials key c (map (fun x => domain_to_tree_index d x h) points) h true.

Lemma evaluate_at_ctx_eq : forall key c T h points, ctx_inv key c -> (h < nlevels d)%nat ->
  level_type d h T -> enough_bytes T (16 * blocks d h) ->
  Forall (fun x => x < 2 ^ N.of_nat (ld d h)) points -> points <> [] ->
  evaluate_at_ctx aes d T (Z.of_nat h) points c
  = if at_covered h points c
    then match values_to_array T (key_values d key h) with
         | Ok corrs => (Ok (map (share aes d T key h corrs) points),
                        with_prev (at_ctx key h points c) (Z.of_nat h))
         | Err e => (Err e, at_ctx key h points c)
         | Crash => (Crash, at_ctx key h points c)
         | UB => (UB, at_ctx key h points c)
         end
    else (Err INVALID_ARGUMENT, c).
Proof.
  intros key c T h points I Hh HT Hen HF Hne. unfold evaluate_at_ctx.
  rewrite (ctx_inv_key _ _ I). pose proof (inv_key_ok _ _ I) as HK.
  rewrite evaluate_at_checks_ok by auto.
  destruct (Nat.eqb_spec (length points) 0) as [E|_].
  { destruct points; [congruence|discriminate]. }
  rewrite Nat2Z.id, evaluate_at_indices_map by auto.
  assert (HFt : Forall (fun p => p < 2 ^ N.of_nat (h2t d h)) (map (fun x => domain_to_tree_index d x h) points)).
  { rewrite Forall_map. eapply Forall_impl; [|exact HF]. cbv beta. intros x Hx. apply tree_index_lt; auto. }
  rewrite (compute_partial_eq key) by auto. unfold at_covered.
  destruct (forallb _ _); auto.
  rewrite evaluate_at_finish_eq; auto.
  - fold (at_ctx key h points c). destruct (values_to_array T (key_values d key h)); reflexivity.
  - eapply Forall_impl; [|exact HF]. cbv beta. intros x Hx.
    eapply N.lt_le_trans; [exact Hx|]. apply pow_le_P128. apply ld_le_128; auto.
  - rewrite map_map. apply map_ext. intros x. rewrite Nat.sub_diag. rewrite N.shiftr_0_r. reflexivity.
Qed.

End Ctx.
