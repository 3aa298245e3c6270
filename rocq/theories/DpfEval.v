(** The evaluation functions compute, point by point, one pure function [share] of the
    key, the level and the point. *)
From Coq Require Import List NArith ZArith Lia Bool ZifyBool ZifyNat ZifyN.
From Verif Require Import Base ListUtil ValueTypesModel ValueTypesSpec ValueTypesProofs
  ConvProofs BitsProofs TypeProofs DpfModel DpfTree DpfWf DpfGen.
Import ListNotations.
Ltac Zify.zify_post_hook ::= Z.div_mod_to_equations.
Open Scope N_scope.

(** * Lists and numbers *)
Lemma mapM_enum_from : forall A B (f : nat * A -> res B) (g : A -> B) l s,
  (forall i a, nth_error l i = Some a -> f ((s + i)%nat, a) = Ok (g a)) ->
  mapM f (combine (seq s (length l)) l) = Ok (map g l).
Proof.
  induction l as [|a l IH]; intros s H; auto. cbn [length seq combine mapM map].
  rewrite <- (Nat.add_0_r s) at 1. rewrite (H 0%nat a eq_refl). cbn [bind].
  rewrite IH; auto. intros i b Hi. replace (S s + i)%nat with (s + S i)%nat by lia. apply H. auto.
Qed.
Lemma mapM_enum : forall A B (f : nat * A -> res B) (g : A -> B) l,
  (forall i a, nth_error l i = Some a -> f (i, a) = Ok (g a)) ->
  mapM f (combine (seq 0 (length l)) l) = Ok (map g l).
Proof. intros. apply mapM_enum_from. auto. Qed.
Lemma mapM_enum_ext : forall A B (f : nat * A -> res B) (g : A -> res B) l s,
  (forall i a, nth_error l i = Some a -> f ((s + i)%nat, a) = g a) ->
  mapM f (combine (seq s (length l)) l) = mapM g l.
Proof.
  induction l as [|a l IH]; intros s H; auto. cbn [length seq combine mapM map].
  rewrite <- (Nat.add_0_r s) at 1. rewrite (H 0%nat a eq_refl).
  rewrite IH; auto. intros i b Hi. replace (S s + i)%nat with (s + S i)%nat by lia. apply H. auto.
Qed.
Lemma mapM_map_ok : forall A B (f : A -> res B) (g : A -> B) l,
  (forall a, In a l -> f a = Ok (g a)) -> mapM f l = Ok (map g l).
Proof.
  induction l as [|a l IH]; intros H; auto. cbn. rewrite H by (left; auto). cbn [bind].
  rewrite IH by (intros; apply H; right; auto). reflexivity.
Qed.

(** The numbers lo, lo+1, ..., lo+n-1. *)
Definition range (lo : N) (n : nat) : list N := map (fun i => lo + N.of_nat i) (seq 0 n).

Lemma range_length : forall lo n, length (range lo n) = n.
Proof. intros. unfold range. rewrite map_length, seq_length. auto. Qed.
Lemma below_range : forall n, below n = range 0 (2 ^ n).
Proof. intros. unfold below, range. apply map_ext. intros. lia. Qed.
Lemma range_app : forall lo a b, range lo (a + b) = range lo a ++ range (lo + N.of_nat a) b.
Proof.
  intros. unfold range. rewrite seq_app, map_app. f_equal. cbn [Nat.add].
  assert (HS : forall n s, seq (a + s) n = map (fun x => (a + x)%nat) (seq s n)).
  { induction n; intros s; cbn; auto. rewrite <- (IHn (S s)). f_equal. f_equal. lia. }
  rewrite <- (Nat.add_0_r a) at 1. rewrite HS, map_map. apply map_ext. intros. lia.
Qed.
Lemma range_in : forall lo n x, In x (range lo n) <-> lo <= x < lo + N.of_nat n.
Proof.
  intros lo n x. unfold range. rewrite in_map_iff. split.
  - intros (i & <- & Hi). apply in_seq in Hi. lia.
  - intros H. exists (N.to_nat (x - lo)). split; [lia|]. apply in_seq. lia.
Qed.
Lemma range_S : forall lo n, range lo (S n) = lo :: range (lo + 1) n.
Proof.
  intros. change (S n) with (1 + n)%nat. rewrite range_app. cbn. f_equal. lia.
Qed.
Lemma range_shift : forall lo c n, range (c + lo) n = map (fun x => c + x) (range lo n).
Proof. intros. unfold range. rewrite map_map. apply map_ext. intros. lia. Qed.
Lemma flat_map_range : forall m n lo,
  flat_map (fun t => range (t * N.of_nat m) m) (range lo n) = range (lo * N.of_nat m) (n * m).
Proof.
  induction n as [|n IH]; intros lo; [reflexivity|].
  rewrite range_S. cbn [flat_map]. rewrite IH. cbn [Nat.mul]. rewrite range_app.
  f_equal. f_equal. lia.
Qed.
Lemma flat_map_map' : forall A B C (f : B -> C) (g : A -> list B) l,
  flat_map (fun a => map f (g a)) l = map f (flat_map g l).
Proof. induction l; cbn; auto. rewrite map_app. f_equal; auto. Qed.
Lemma concat_map_flat_map : forall A B (f : A -> list B) l, concat (map f l) = flat_map f l.
Proof. induction l; cbn; auto. f_equal; auto. Qed.

Lemma pow2_nat_N : forall n, N.of_nat (2 ^ n) = 2 ^ N.of_nat n.
Proof. intros. rewrite Nat2N.inj_pow. reflexivity. Qed.
Lemma pow2_nat_pos : forall n, (0 < 2 ^ n)%nat.
Proof. intros. pose proof (Nat.pow_nonzero 2 n). lia. Qed.
Lemma pow_le_P128 : forall n, (n <= 128)%nat -> 2 ^ N.of_nat n <= P128.
Proof. intros. change P128 with (2 ^ 128). apply N.pow_le_mono_r; lia. Qed.

Lemma subspan_ok : forall A (l : list A) pos len, (pos <= length l)%nat ->
  subspan l pos len = Ok (firstn len (skipn pos l)).
Proof. intros. unfold subspan. destruct (Nat.leb_spec pos (length l)); auto. lia. Qed.
Lemma max_point_check : forall l, (l <= 128)%nat ->
  (if Nat.ltb l 128 then 2 ^ N.of_nat l - 1 else P128 - 1) = 2 ^ N.of_nat l - 1.
Proof.
  intros l Hl. destruct (Nat.ltb_spec l 128); auto. replace l with 128%nat by lia. reflexivity.
Qed.

Section Eval.
Variable aes : N -> N -> N.
Variable d : dpf.
Hypothesis W : wf d.

Definition root (key : dkey) : node := (key_seed key, key_bit key).

(** The node at tree level [t] reached by the low [t] bits of [path]. *)
Definition node_at (key : dkey) (t : nat) (path : N) : node :=
  walk aes (map corr_of (firstn t (k_cws key))) path (root key).

Definition node_elems (T : cty) (h : nat) (n : node) : list cval :=
  match convert_bytes T (node_bytes aes d h (fst n)) with Ok e => e | _ => [] end.

(** The share of element [j] of the block of a node. *)
Definition bshare (T : cty) (key : dkey) (h : nat) (corrs : list cval) (n : node) (j : nat) : cval :=
  share_of T (k_party key) (snd n) (nth j (node_elems T h n) (vzero T)) (nth j corrs (vzero T)).

(** The share of the domain element [x] at hierarchy level [h]. *)
Definition share (T : cty) (key : dkey) (h : nat) (corrs : list cval) (x : N) : cval :=
  bshare T key h corrs (node_at key (h2t d h) (domain_to_tree_index d x h))
         (domain_to_block_index d x h).

Definition key_ok (key : dkey) : Prop := validate_dpf_key d key = Ok tt.

Lemma key_ok_len : forall key, key_ok key -> length (k_cws key) = (d_levels d - 1)%nat.
Proof.
  intros key H. unfold key_ok, validate_dpf_key in H. bind_inv H. bind_inv H. bind_inv H.
  rewrite check_ok in Hb1. pose proof (wf_levels _ W). lia.
Qed.
Lemma key_ok_h2t : forall key h, key_ok key -> (h < nlevels d)%nat -> (h2t d h <= length (k_cws key))%nat.
Proof.
  intros key h Hk Hh. rewrite key_ok_len by auto. rewrite (wf_levels _ W).
  pose proof (h2t_le_last d W h Hh). lia.
Qed.

Lemma node_at_ext : forall key t p q,
  (forall i, (i < t)%nat -> N.testbit p (N.of_nat i) = N.testbit q (N.of_nat i)) ->
  node_at key t p = node_at key t q.
Proof.
  intros key t p q H. unfold node_at. apply walk_ext. intros i Hi. apply H.
  rewrite map_length, firstn_length in Hi. lia.
Qed.

Lemma node_at_split : forall key a t p, (a <= t)%nat -> (t <= length (k_cws key))%nat ->
  node_at key t p
  = walk aes (map corr_of (firstn (t - a) (skipn a (k_cws key)))) p
      (node_at key a (N.shiftr p (N.of_nat (t - a)))).
Proof.
  intros key a t p Ha Ht. unfold node_at.
  assert (HF : firstn t (k_cws key) = firstn a (k_cws key) ++ firstn (t - a) (skipn a (k_cws key))).
  { rewrite <- (firstn_skipn a (firstn t (k_cws key))). f_equal.
    - rewrite firstn_firstn. f_equal. lia.
    - rewrite skipn_firstn_comm. reflexivity. }
  rewrite HF, map_app, walk_app, map_length, firstn_length, skipn_length.
  rewrite Nat.min_l by lia. reflexivity.
Qed.

Section Level.
Variables (h : nat) (T : cty).
Hypothesis Hh : (h < nlevels d)%nat.
Hypothesis HT : level_type d h T.
Hypothesis Hen : enough_bytes T (16 * blocks d h).

Lemma node_elems_ok : forall n, convert_bytes T (node_bytes aes d h (fst n)) = Ok (node_elems T h n) /\
  length (node_elems T h n) = elements_per_block T /\
  Forall (fun v => wt T v = true) (node_elems T h n).
Proof.
  intros n. unfold node_elems.
  destruct (convert_bytes_ok T (node_bytes aes d h (fst n)) (proj1 HT)) as (vs & H1 & H2 & H3).
  { rewrite node_bytes_length. auto. }
  rewrite H1. auto.
Qed.

Lemma values_to_array_len : forall vs corrs, values_to_array T vs = Ok corrs ->
  length corrs = elements_per_block T /\ Forall (fun v => wt T v = true) corrs.
Proof.
  intros vs corrs H. unfold values_to_array in H.
  destruct (Nat.eqb_spec (length vs) (elements_per_block T)) as [E|]; cbn in H; [|discriminate].
  pose proof (mapM_length _ _ _ _ _ H) as HL. split; [lia|].
  apply mapM_ok_iff in H. clear HL E. induction H; constructor; auto.
  eapply from_value_wt; eauto. apply HT.
Qed.

Lemma correct_element_bshare : forall key corrs n j,
  length corrs = elements_per_block T -> (j < elements_per_block T)%nat ->
  correct_element T (k_party key) (snd n) (node_elems T h n) corrs j = Ok (bshare T key h corrs n j).
Proof.
  intros key corrs n j HL Hj. unfold correct_element, bshare, share_of.
  destruct (node_elems_ok n) as (_ & HLe & _).
  unfold at_or_ub. rewrite (nth_error_nth' _ (vzero T)) by lia. cbn [bind].
  destruct (snd n).
  - rewrite (nth_error_nth' _ (vzero T)) by lia. reflexivity.
  - reflexivity.
Qed.

Lemma block_index_bound : forall x, (domain_to_block_index d x h < 2 ^ block_bits d h)%nat.
Proof.
  clear - d h.
  intros x. unfold domain_to_block_index. rewrite N.land_ones.
  pose proof (N.mod_lt x (2 ^ N.of_nat (block_bits d h))).
  assert (2 ^ N.of_nat (block_bits d h) <> 0) by (apply N.pow_nonzero; lia).
  pose proof (pow2_nat_N (block_bits d h)). lia.
Qed.
Lemma block_index_epb : forall x, (domain_to_block_index d x h < elements_per_block T)%nat.
Proof. intros x. pose proof (block_index_bound x). pose proof (wf_epb _ W h T HT). lia. Qed.

Lemma block_bits_epb1 : (elements_per_block T <= 1)%nat -> block_bits d h = 0%nat.
Proof.
  intros H. pose proof (wf_epb _ W h T HT). destruct (block_bits d h) as [|k]; auto.
  cbn in H0. pose proof (pow2_nat_pos k). lia.
Qed.

Lemma tree_index_lt : forall x, x < 2 ^ N.of_nat (ld d h) ->
  domain_to_tree_index d x h < 2 ^ N.of_nat (h2t d h).
Proof.
  clear - W Hh.
  intros x Hx. unfold domain_to_tree_index, block_bits. rewrite N.shiftr_div_pow2.
  apply N.div_lt_upper_bound; [apply N.pow_nonzero; lia|].
  rewrite <- N.pow_add_r. pose proof (wf_h2t_ld _ W h Hh).
  replace (N.of_nat (ld d h - h2t d h) + N.of_nat (h2t d h)) with (N.of_nat (ld d h)) by lia. auto.
Qed.

Lemma evaluate_at_indices_map : forall points,
  evaluate_at_indices d T h points = map (fun x => domain_to_tree_index d x h) points.
Proof.
  intros points. unfold evaluate_at_indices.
  destruct (Nat.ltb_spec 1 (elements_per_block T)) as [E|E]; auto.
  rewrite <- (map_id points) at 1. apply map_ext. intros x.
  unfold domain_to_tree_index. rewrite block_bits_epb1 by auto. symmetry. apply N.shiftr_0_r.
Qed.

Lemma index_choice : forall x,
  (if Nat.ltb 1 (elements_per_block T) then domain_to_block_index d x h else 0%nat)
  = domain_to_block_index d x h.
Proof.
  intros x. destruct (Nat.ltb_spec 1 (elements_per_block T)) as [E|E]; auto.
  pose proof (block_index_bound x). rewrite block_bits_epb1 in H by auto. cbn in H. lia.
Qed.

(** The argument checks of EvaluateAt, as a specification. *)
Lemma evaluate_at_checks_ok : forall key points,
  key_ok key -> Forall (fun x => x < 2 ^ N.of_nat (ld d h)) points ->
  evaluate_at_checks d key (Z.of_nat h) points = Ok tt.
Proof.
  clear - W Hh.
  intros key points Hk HF. unfold evaluate_at_checks.
  replace (0 <=? Z.of_nat h)%Z with true by (symmetry; apply Z.leb_le; lia). cbn [check bind].
  replace (Z.of_nat h <? Z.of_nat (nlevels d))%Z with true by (symmetry; apply Z.ltb_lt; lia). cbn [check bind].
  rewrite Nat2Z.id, max_point_check by (apply ld_le_128; auto).
  assert (2 ^ N.of_nat (ld d h) <> 0) by (apply N.pow_nonzero; lia).
  assert (HI : iterM (fun x => check (x <=? 2 ^ N.of_nat (ld d h) - 1) INVALID_ARGUMENT) points = Ok tt).
  { apply iterM_ok. eapply Forall_impl; [|exact HF]. cbv beta. intros x Hx. apply check_ok. apply N.leb_le. lia. }
  rewrite HI. cbn [bind].
  exact Hk.
Qed.

Lemma evaluate_at_finish_eq : forall key points tis st start,
  key_ok key -> (start <= h2t d h)%nat ->
  Forall (fun x => x < P128) points ->
  tis = map (fun x => domain_to_tree_index d x h) points ->
  st = map (fun x => node_at key start (N.shiftr (domain_to_tree_index d x h) (N.of_nat (h2t d h - start)))) points ->
  evaluate_at_finish aes d T key h points tis st start
  = (corrs <- values_to_array T (key_values d key h) ;; Ok (map (share T key h corrs) points)).
Proof.
  intros key points tis st start Hk Hs HF -> ->. unfold evaluate_at_finish.
  unfold at_or_ub at 1. rewrite h2t_nth_error by auto. cbn [bind].
  pose proof (key_ok_h2t key h Hk Hh) as Hlen.
  rewrite subspan_ok by lia. cbn [bind].
  rewrite evaluate_seeds_walk.
  2:{ rewrite !map_length. auto. }
  2:{ rewrite Forall_map. eapply Forall_impl; [|exact HF]. cbv beta. intros x Hx.
      unfold domain_to_tree_index. rewrite N.shiftr_div_pow2.
      eapply N.le_lt_trans; [|exact Hx]. apply N.div_le_upper_bound; [apply N.pow_nonzero; lia|].
      assert (1 <= 2 ^ N.of_nat (block_bits d h)) by (pose proof (pow2_pos (N.of_nat (block_bits d h))); lia). nia. }
  cbn [bind]. rewrite zip2_map_l, zip2_map_r, zip2_same.
  set (nodes := map _ points).
  assert (Hnodes : nodes = map (fun x => node_at key (h2t d h) (domain_to_tree_index d x h)) points).
  { unfold nodes. apply map_ext. intros x. symmetry. apply node_at_split; auto. }
  rewrite Hnodes. clear nodes Hnodes.
  rewrite value_correction_values by (auto using key_ok_len).
  destruct (values_to_array T (key_values d key h)) as [corrs| | |] eqn:Ec; cbn [bind]; auto.
  apply values_to_array_len in Ec. destruct Ec as [Ec _].
  set (st := map _ points).
  assert (Hl : length points = length (combine points st)) by (unfold st; rewrite combine_length, map_length; lia).
  rewrite Hl. rewrite (mapM_enum _ _ _ (fun xn => bshare T key h corrs (snd xn) (domain_to_block_index d (fst xn) h))).
  - f_equal. unfold st. clear.
    induction points as [|x points IH]; cbn; auto. f_equal. auto.
  - intros i [x n] Hi. cbn [fst snd].
    assert (Hn : nth_error (map fst st) i = Some (fst n)).
    { clear - Hi. clearbody st. revert st i Hi. induction points as [|y ps IH]; intros [|m st] [|i] Hi; cbn in *; try discriminate.
      - inv Hi. auto.
      - apply IH. auto. }
    rewrite (block_bytes_node aes d h _ _ _ Hn).
    destruct (node_elems_ok n) as (He & _). rewrite He. cbn [bind].
    rewrite index_choice. apply correct_element_bshare; auto. apply block_index_epb.
Qed.

Lemma evaluate_at_eq : forall key points,
  key_ok key -> Forall (fun x => x < 2 ^ N.of_nat (ld d h)) points -> points <> [] ->
  evaluate_at aes d T key (Z.of_nat h) points
  = (corrs <- values_to_array T (key_values d key h) ;; Ok (map (share T key h corrs) points)).
Proof.
  intros key points Hk HF Hne. unfold evaluate_at. rewrite evaluate_at_checks_ok by auto. cbn [bind].
  destruct (Nat.eqb_spec (length points) 0) as [E|_].
  { destruct points; [congruence|discriminate]. }
  rewrite Nat2Z.id. apply evaluate_at_finish_eq; auto; try lia.
  - eapply Forall_impl; [|exact HF]. cbv beta. intros x Hx.
    eapply N.lt_le_trans; [exact Hx|]. apply pow_le_P128. apply ld_le_128; auto.
  - apply evaluate_at_indices_map.
Qed.

End Level.
End Eval.
