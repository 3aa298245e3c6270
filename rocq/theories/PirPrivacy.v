(** What one server's request reveals about the queries (for PropertiesPirPrivacy.v). *)
From Coq Require Import List NArith ZArith Lia Bool ZifyBool ZifyNat ZifyN.
From Verif Require Import Base ListUtil ValueTypesModel ValueTypesSpec ValueTypesProofs TypeProofs DpfModel DpfTree DpfWf DpfSpec DpfFacts
  DpfPrivacySpec DpfPrivacy DpfHide DpfBiject DpfBatch PirDbModel PirSpec PirModel PirProtoSpec PirProtoProofs PirDenseProofs
  PropertiesPirProto.
Import ListNotations.
Ltac Zify.zify_post_hook ::= Z.div_mod_to_equations.
Open Scope N_scope.

(** * Specification *)

(** The 128-bit block of a record, i.e. the alpha of its DPF. *)
Definition record_block (q : Z) : N := Z.to_N (q / 128).
(** The key pairs in the requests for the leader and the helper. *)
Definition request_keys (l : plain_request) (h : helper_request) : list (dkey * dkey) :=
  combine (pq_keys l) (match hq_plain h with Some p => pq_keys p | None => [] end).
(** The key pairs with the blocks of two lists of queries. *)
Definition query_pairs (l : plain_request) (h : helper_request) (qs qs' : list Z) : list ((dkey * dkey) * (N * N)) :=
  combine (request_keys l h) (combine (map record_block qs) (map record_block qs')).
(** What a server receives: the leader ([false]) or the helper ([true]). *)
Definition view (f : bool) (l : plain_request) (h : helper_request) : plain_request + helper_request :=
  if f then inr h else inl l.

(** * Proofs *)

Definition beta_value (q : Z) : list pvalue := [to_value block_type (VNum (beta_of q))].
Fixpoint jobs (seeds : nat -> N * N) (i : nat) (l : list ((dkey * dkey) * (Z * Z))) : list job :=
  match l with
  | [] => []
  | (ks, (q, q')) :: l' =>
      {| j_keys := ks; j_alpha := record_block q; j_beta := beta_value q; j_alpha' := record_block q'; j_beta' := beta_value q';
         j_s0 := fst (seeds i); j_s1 := snd (seeds i) |} :: jobs seeds (S i) l'
  end.

Section Dense.
Variables (F : fops) (clog : Z -> Z) (n : Z).
Hypothesis Hn : (0 < n < 2147483648)%Z.
Hypothesis HL : clog_ok clog n.
Variable d : dpf.
Hypothesis Hd : create_incremental F (dense_params clog n) = Ok d.
Let d' := register_value_type block_type d.
Let ps := dense_params clog n.
Let valid (q : Z) : Prop := (0 <= q < n)%Z.

Lemma dense_keys_eq : forall aes q s, valid q ->
  dense_keys aes d q s = generate_keys aes d' (record_block q) (beta_value q) (fst s) (snd s).
Proof using Hn.
  intros aes q s Hq. unfold valid in Hq. unfold dense_keys. rewrite Z.quot_div_nonneg, Z.rem_mod_nonneg by lia. cbv zeta.
  rewrite N.shiftl_1_l. unfold w128. change P128 with (2 ^ 128). rewrite N.mod_small by apply beta_lt. reflexivity.
Qed.
Lemma block_lt : forall q, valid q -> record_block q < 2 ^ 128.
Proof using Hn.
  intros q Hq. unfold valid in Hq. unfold record_block. change (2 ^ 128) with 340282366920938463463374607431768211456. lia.
Qed.
Lemma query_accepted : forall q, valid q -> accepted d' (record_block q) (beta_value q).
Proof using Hn HL Hd.
  intros q Hq. split; [apply block_lt; auto|].
  destruct (dense_keys_ok (fun _ _ => 0) F clog n ltac:(lia) ltac:(lia) HL d Hd q (0, 0) Hq) as (k0 & k1 & _ & E). eauto.
Qed.

Definition key_runs (aes : N -> N -> N) (seeds : nat -> N * N) (i : nat) (qs : list Z) : res (list (dkey * dkey)) :=
  mapM (fun iq : nat * Z => dense_keys aes d (snd iq) (seeds (fst iq))) (combine (seq i (length qs)) qs).

Lemma jobs_run : forall aes seeds qs qs' i keys, Forall valid qs -> Forall valid qs' -> length qs' = length qs ->
  key_runs aes seeds i qs = Ok keys ->
  let js := jobs seeds i (combine keys (combine qs qs')) in
  length keys = length qs /\
  Forall (j_run d' aes) js /\ Forall (fun j => accepted d' (j_alpha' j) (j_beta' j)) js /\
  map j_of js = combine keys (combine (map record_block qs) (map record_block qs')).
Proof using Hn HL Hd.
  intros aes seeds. induction qs as [|q qs IH]; intros qs' i keys HV HV' HE H.
  - destruct qs'; [|discriminate]. unfold key_runs in H. cbn in H. injection H as <-. cbn. auto.
  - destruct qs' as [|q' qs']; [discriminate|]. fcons HV Hq HV. fcons HV' Hq' HV'. injection HE as HE.
    unfold key_runs in H. cbn [length seq combine mapM fst snd] in H. bind_inv H. bind_inv H. injection H as <-.
    destruct (IH qs' (S i) a0 HV HV' HE Hb0) as (IL & I1 & I2 & I3).
    cbn [combine jobs map length]. split; [congruence|]. split; [|split].
    + constructor; [|exact I1]. split; cbn [j_alpha j_beta j_s0 j_s1 j_keys]; [apply block_lt; auto|].
      rewrite <- dense_keys_eq by auto. exact Hb.
    + constructor; [|exact I2]. cbn [j_alpha' j_beta']. apply query_accepted. auto.
    + rewrite I3. reflexivity.
Qed.
Lemma jobs_back : forall aes seeds qs qs' i keys, Forall valid qs' -> length qs' = length qs -> length keys = length qs ->
  Forall (j_run' d' aes) (jobs seeds i (combine keys (combine qs qs'))) -> key_runs aes seeds i qs' = Ok keys.
Proof using Hn.
  intros aes seeds. induction qs as [|q qs IH]; intros qs' i keys HV' HE HK H.
  - destruct qs'; [|discriminate]. destruct keys; [|discriminate]. reflexivity.
  - destruct qs' as [|q' qs']; [discriminate|]. destruct keys as [|ks keys]; [discriminate|]. fcons HV' Hq' HV'.
    cbn [combine jobs] in H. fcons H H1 H. injection HE as HE. injection HK as HK.
    unfold key_runs. cbn [length seq combine mapM fst snd]. rewrite dense_keys_eq by auto.
    unfold j_run' in H1. cbn [j_alpha' j_beta' j_s0 j_s1 j_keys] in H1. rewrite H1. cbn [bind].
    specialize (IH qs' (S i) keys HV' HE HK H). unfold key_runs in IH. rewrite IH. reflexivity.
Qed.

(** The requests in terms of [key_runs]. *)
Lemma requests_eq : forall aes qs seeds pad, Forall valid qs ->
  dense_create_plain_requests aes {| dc_dpf := d; dc_size := n |} qs seeds pad =
  (keys <- key_runs aes seeds 0 qs ;;
   Ok ({| pq_keys := map fst keys; pq_fingerprint := 0 |},
       {| hq_plain := match keys with [] => None | _ => Some {| pq_keys := map snd keys; pq_fingerprint := 0 |} end; hq_seed := pad |},
       CsDense pad)).
Proof using.
  intros aes qs seeds pad HV. unfold dense_create_plain_requests. rewrite range_check. cbn [dc_dpf dc_size].
  replace (existsb _ qs) with false; [reflexivity|].
  symmetry. apply not_true_is_false. intros HE. apply existsb_exists in HE. destruct HE as (q & Hq & Hr).
  pose proof (proj1 (Forall_forall _ _) HV q Hq) as HX. unfold valid in HX. lia.
Qed.
Lemma requests_valid : forall aes qs seeds pad r,
  dense_create_plain_requests aes {| dc_dpf := d; dc_size := n |} qs seeds pad = Ok r -> Forall valid qs.
Proof using.
  intros aes qs seeds pad r H. unfold dense_create_plain_requests in H. rewrite range_check in H. cbn [dc_size] in H.
  destruct (existsb _ qs) eqn:E; [discriminate|]. apply Forall_forall. intros q Hq. unfold valid.
  assert (~ ((q <? 0)%Z || (n <=? q)%Z = true)); [|lia].
  intros HX. assert (existsb (fun q => (q <? 0)%Z || (n <=? q)%Z) qs = true) by (apply existsb_exists; eauto). congruence.
Qed.
Lemma keys_of_requests : forall keys pad,
  request_keys {| pq_keys := map fst keys; pq_fingerprint := 0 |}
    {| hq_plain := match keys with [] => None | _ => Some {| pq_keys := map snd keys; pq_fingerprint := 0 |} end; hq_seed := pad |} = keys.
Proof using.
  intros [|k keys] pad; [reflexivity|]. unfold request_keys. cbn [pq_keys hq_plain].
  generalize (k :: keys). intros l. induction l as [|[a b] l IH]; [reflexivity|]. cbn [map combine fst snd]. rewrite IH. reflexivity.
Qed.

Lemma dense_hides : forall (f : bool) aes qs qs' seeds pad l h st,
  dense_create_plain_requests aes {| dc_dpf := d; dc_size := n |} qs seeds pad = Ok (l, h, st) ->
  length qs' = length qs -> Forall valid qs' ->
  all_apart aes ps d' f (query_pairs l h qs qs') ->
  exists aes1, dense_create_plain_requests aes1 {| dc_dpf := d; dc_size := n |} qs' seeds pad = Ok (l, h, st) /\
    agree_off (others_uses aes ps d' f (query_pairs l h qs qs')) aes aes1 /\
    (on_blocks aes -> (forall i, fst (seeds i) < 2 ^ 128 /\ snd (seeds i) < 2 ^ 128) -> on_blocks aes1).
Proof using Hn HL Hd.
  intros f aes qs qs' seeds pad l h st H HE HV' HA. pose proof (requests_valid _ _ _ _ _ H) as HV.
  rewrite requests_eq in H by auto. bind_inv H. injection H as <- <- <-. unfold query_pairs in *. rewrite keys_of_requests in *.
  destruct (jobs_run aes seeds qs qs' 0 a HV HV' HE Hb) as (J0 & J1 & J2 & J3). rewrite <- J3 in *.
  destruct (batch_hides F ps [block_type] d' (dense_created F clog n d Hd) f _ aes J1 J2 HA) as (aes1 & R & O & B & _).
  exists aes1. split; [|split; [exact O|]].
  - rewrite requests_eq by auto. rewrite (jobs_back aes1 seeds qs qs' 0 a HV' HE J0 R). reflexivity.
  - intros HB HS. apply B; auto. apply Forall_forall. clear - HS. generalize 0%nat (combine a (combine qs qs')).
    intros i l. revert i. induction l as [|[ks [q q']] l IH]; intros i j; [intros []|]. cbn [jobs]. intros [<- | Hj]; [apply HS|eauto].
Qed.

Lemma no_mod : no_int_mod_n ps.
Proof using.
  intros i T (Hok & p & Hp & HD). unfold ps, dense_params in Hp. destruct i as [|i]; [|destruct i; discriminate].
  injection Hp as <-. inversion HD; subst; reflexivity.
Qed.

(** The exchange does not depend on the keys. *)
Definition no_keys (l : list ((dkey * dkey) * (Z * Z))) (ks : dkey * dkey) := map (fun x => (ks, snd x)) l.
Lemma exchange_no_keys : forall f seeds ks l i aes,
  exchange_all ps d' f (jobs seeds i l) aes = exchange_all ps d' f (jobs seeds i (no_keys l ks)) aes /\
  undo_all ps d' f (jobs seeds i l) aes = undo_all ps d' f (jobs seeds i (no_keys l ks)) aes.
Proof using.
  intros f seeds ks. induction l as [|[k [q q']] l IH]; intros i aes; [split; reflexivity|].
  cbn [no_keys map jobs snd exchange_all undo_all].
  unfold x_one at 1 2 3 4. cbn [j_swap j_s0 j_s1 j_alpha j_beta j_alpha' j_beta' j_keys].
  split; [exact (proj1 (IH (S i) _))|]. rewrite (proj2 (IH (S i) aes)). reflexivity.
Qed.
Lemma no_keys_combine : forall (keys : list (dkey * dkey)) (qs qs' : list Z) ks, length keys = length qs -> length qs' = length qs ->
  no_keys (combine keys (combine qs qs')) ks = combine (repeat ks (length qs)) (combine qs qs').
Proof using.
  clear. induction keys as [|k keys IH]; intros [|q qs] [|q' qs'] ks H1 H2; try discriminate; [reflexivity|].
  cbn [length repeat combine no_keys map snd]. f_equal. apply IH; cbn [length] in *; clear - H1 H2; lia.
Qed.

(** The exchange, given the queries. *)
Definition some_keys : dkey * dkey :=
  let k := {| k_seed := None; k_cws := []; k_party := 0%Z; k_last := [] |} in (k, k).
Definition query_jobs (seeds : nat -> N * N) (qs qs' : list Z) := jobs seeds 0 (combine (repeat some_keys (length qs)) (combine qs qs')).

Lemma all_apart_swap : forall f aes aes1 js,
  all_apart aes ps d' f (map j_of js) ->
  Forall (fun j => usesB' ps d' f aes1 j = usesB ps d' f aes j /\ usesA ps d' f aes1 j = usesA ps d' f aes j /\
                   usesA' ps d' f aes1 j = usesA' ps d' f aes j) js ->
  all_apart aes1 ps d' f (map (fun j => (j_keys j, (j_alpha' j, j_alpha j))) js) /\
  others_uses aes1 ps d' f (map (fun j => (j_keys j, (j_alpha' j, j_alpha j))) js) = others_uses aes ps d' f (map j_of js).
Proof using.
  intros f aes aes1 js [HN HD] HF.
  assert (EO : others_uses aes1 ps d' f (map (fun j => (j_keys j, (j_alpha' j, j_alpha j))) js) = others_uses aes ps d' f (map j_of js)).
  { clear HN HD. induction js as [|j js IH]; [reflexivity|]. fcons HF Hj HF. cbn [map others_uses flat_map].
    unfold others_uses in IH. rewrite (IH HF). f_equal. apply Hj. }
  split; [|exact EO]. split; [rewrite EO; exact HN|]. intros x Hx. rewrite EO. apply in_map_iff in Hx. destruct Hx as (j & <- & Hj).
  rewrite Forall_forall in HF. destruct (HF j Hj) as (_ & E1 & E2). cbn [fst snd].
  destruct (HD (j_of j) (in_map j_of js j Hj)) as [D1 D2]. unfold usesA, usesA' in *. rewrite E1, E2. auto.
Qed.

Lemma jobs_swapped : forall seeds qs qs' i keys, length keys = length qs -> length qs' = length qs ->
  map (fun j => (j_keys j, (j_alpha' j, j_alpha j))) (jobs seeds i (combine keys (combine qs qs')))
  = combine keys (combine (map record_block qs') (map record_block qs)).
Proof using.
  clear. intros seeds. induction qs as [|q qs IH]; intros [|q' qs'] i [|k keys] H1 H2; try discriminate; [reflexivity|].
  cbn [combine jobs map j_keys j_alpha' j_alpha]. f_equal. apply IH; cbn [length] in *; clear - H1 H2; lia.
Qed.

Lemma dense_exchange : forall (f : bool) seeds, (forall i, fst (seeds i) < 2 ^ 128 /\ snd (seeds i) < 2 ^ 128) ->
  forall aes qs qs' pad l h st, on_blocks aes ->
  dense_create_plain_requests aes {| dc_dpf := d; dc_size := n |} qs seeds pad = Ok (l, h, st) ->
  length qs' = length qs -> Forall valid qs' ->
  all_apart aes ps d' f (query_pairs l h qs qs') ->
  let aes1 := exchange_all ps d' f (query_jobs seeds qs qs') aes in
  on_blocks aes1 /\ dense_create_plain_requests aes1 {| dc_dpf := d; dc_size := n |} qs' seeds pad = Ok (l, h, st) /\
  all_apart aes1 ps d' f (query_pairs l h qs' qs) /\
  others_uses aes1 ps d' f (query_pairs l h qs' qs) = others_uses aes ps d' f (query_pairs l h qs qs') /\
  agree_off (others_uses aes ps d' f (query_pairs l h qs qs')) aes aes1 /\
  forall k x, undo_all ps d' f (query_jobs seeds qs qs') aes1 k x = aes k x.
Proof using Hn HL Hd.
  intros f seeds HS aes qs qs' pad l h st HB H HE HV' HA. pose proof (requests_valid _ _ _ _ _ H) as HV.
  rewrite requests_eq in H by auto. bind_inv H. injection H as <- <- <-. unfold query_pairs in *. rewrite keys_of_requests in *.
  destruct (jobs_run aes seeds qs qs' 0 a HV HV' HE Hb) as (J0 & J1 & J2 & J3). rewrite <- J3 in *.
  destruct (exchange_all_ok F ps [block_type] d' (dense_created F clog n d Hd) f no_mod _ aes J1 J2 HA HB) as (R & O & B & E & U).
  { apply Forall_forall. clear - HS. generalize 0%nat (combine a (combine qs qs')).
    intros i l. revert i. induction l as [|[ks [q q']] l IH]; intros i j; [intros []|]. cbn [jobs]. intros [<- | Hj]; [apply HS|eauto]. }
  destruct (all_apart_swap f aes _ _ HA E) as [S1 S2]. rewrite jobs_swapped in S1, S2 by auto.
  assert (EX : forall g, exchange_all ps d' f (jobs seeds 0 (combine a (combine qs qs'))) g = exchange_all ps d' f (query_jobs seeds qs qs') g /\
               undo_all ps d' f (jobs seeds 0 (combine a (combine qs qs'))) g = undo_all ps d' f (query_jobs seeds qs qs') g).
  { intros g. unfold query_jobs. rewrite <- (no_keys_combine a qs qs' some_keys J0 HE). apply exchange_no_keys. }
  rewrite (proj1 (EX aes)) in *. set (aes1 := exchange_all ps d' f (query_jobs seeds qs qs') aes) in *.
  split; [exact B|]. split; [|split; [exact S1|split; [exact S2|split; [exact O|]]]].
  - rewrite requests_eq by auto. rewrite (jobs_back aes1 seeds qs qs' 0 a HV' HE J0 R). reflexivity.
  - intros k x. rewrite <- (proj2 (EX aes1)). apply U.
Qed.
End Dense.
