(** C47-C49: the shape of DPF keys, and what a single key reveals. *)
From Coq Require Import List NArith ZArith Bool Lia.
From Verif Require Import Base ListUtil ValueTypesModel ValueTypesSpec ValueTypesProofs TypeProofs DpfModel DpfTree DpfWf DpfSpec DpfPoint DpfHist DpfFacts DpfExamples
  DpfPrivacySpec DpfPrivacy DpfHide DpfBiject.
Import ListNotations.
Open Scope N_scope.

(** * C47: the shape of generated keys *)

(** Every generated key has the shape fixed by the parameters. *)
Theorem C47_shape : forall F ps types d, created F ps types d ->
  forall aes alpha beta s0 s1 k0 k1, alpha < 2 ^ 128 ->
  generate_keys aes d alpha beta s0 s1 = Ok (k0, k1) ->
  key_shape ps d 0 k0 /\ key_shape ps d 1 k1.
Proof.
  intros F ps types d HC aes alpha beta s0 s1 k0 k1 Ha HG.
  split; [apply (generated_shape F ps types d HC aes alpha beta s0 s1 _ false Ha HG)
         |apply (generated_shape F ps types d HC aes alpha beta s0 s1 _ true Ha HG)].
Qed.
Print Assumptions C47_shape.
(** The keys hold the two random seeds and share everything but the seed and the party. *)
Theorem C47_shared : forall F ps types d, created F ps types d ->
  forall aes alpha beta s0 s1 k0 k1, alpha < 2 ^ 128 ->
  generate_keys aes d alpha beta s0 s1 = Ok (k0, k1) ->
  k_seed k0 = Some s0 /\ k_seed k1 = Some s1 /\ k_cws k1 = k_cws k0 /\ k_last k1 = k_last k0.
Proof.
  intros F ps types d HC aes alpha beta s0 s1 k0 k1 Ha HG.
  destruct (run_keys F ps types d HC aes _ _ _ _ _ _ Ha HG) as (H0 & H1 & _ & _ & H4 & H5 & _). auto.
Qed.
Print Assumptions C47_shared.
(** Every field of a key that holds a block holds a 128-bit integer. *)
Theorem C47_blocks : forall F ps types d, created F ps types d ->
  forall aes alpha beta s0 s1 k0 k1, alpha < 2 ^ 128 -> on_blocks aes -> s0 < 2 ^ 128 -> s1 < 2 ^ 128 ->
  generate_keys aes d alpha beta s0 s1 = Ok (k0, k1) -> key_blocks k0 /\ key_blocks k1.
Proof.
  intros F ps types d HC aes alpha beta s0 s1 k0 k1 Ha HA Hs0 Hs1 HG.
  destruct (run_keys F ps types d HC aes _ _ _ _ _ _ Ha HG) as (H0 & H1 & _ & _ & H4 & _).
  destruct (run_blocks F ps types d HC aes _ _ _ _ _ _ Ha HG HA Hs0 Hs1) as [HB _].
  split; (split; [intros s Hs; congruence|rewrite ?H4; exact HB]).
Qed.
Print Assumptions C47_blocks.
(** Whether GenerateKeysIncremental succeeds does not depend on the cipher or the seeds. *)
Theorem C47_total : forall F ps types d, created F ps types d ->
  forall alpha beta, accepted d alpha beta -> forall aes s0 s1, exists ks, generate_keys aes d alpha beta s0 s1 = Ok ks.
Proof. intros. eapply accepted_all; eauto. Qed.
Print Assumptions C47_total.

(** * C48: each key is consistent with every alpha and beta *)

(** Any key of the right shape, of either party ([f]: party 1), is a possible key for any
    accepted alpha and beta, and for any seeds of the other party along the path of alpha:
    the block cipher has to be changed only where the other party uses it. *)
Theorem C48_consistent : forall F ps types d, created F ps types d ->
  forall (f : bool) key alpha beta (seeds : nat -> N) aes,
  key_shape ps d (if f then 1 else 0)%Z key -> accepted d alpha beta ->
  (forall i, (0 < i <= d_levels d - 1)%nat -> N.even (seeds i) = true) ->
  NoDup (seed_uses d seeds) -> disjoint (path_uses aes ps d key alpha) (seed_uses d seeds) ->
  exists aes1 ks,
    generate_keys aes1 d alpha beta (if f then seeds 0%nat else key_seed key)
                                    (if f then key_seed key else seeds 0%nat) = Ok ks /\
    key_of f ks = key /\
    (forall i, (i <= d_levels d - 1)%nat ->
       fst (path_node aes1 (last_ld ps) (key_of (negb f) ks) alpha i) = seeds i) /\
    agree_off (seed_uses d seeds) aes aes1 /\
    (on_blocks aes -> key_blocks key -> (forall i, (i <= d_levels d - 1)%nat -> seeds i < 2 ^ 128) -> on_blocks aes1).
Proof.
  intros F ps types d HC f key alpha beta seeds aes HS Hacc He HN HD.
  assert (HS' : key_shape ps d (party_of f) key) by (destruct f; exact HS).
  destruct (simulated F ps types d HC aes f key alpha beta seeds HS' Hacc He HN HD) as (aes1 & H1 & H2 & H3 & H4).
  exists aes1, (if f then (sim_other f key seeds, key) else (key, sim_other f key seeds)).
  split; [exact H1|]. split; [destruct f; reflexivity|]. split; [|auto].
  intros i Hi. rewrite <- (H2 i Hi). destruct f; reflexivity.
Qed.
Print Assumptions C48_consistent.

(** The same pair of keys is generated from the same seeds for any other accepted alpha'
    and beta', under a block cipher that differs only at the blocks that the other party
    encrypts along the path of alpha. *)
Theorem C48_hides : forall F ps types d, created F ps types d ->
  forall (f : bool) aes alpha beta s0 s1 ks alpha' beta', alpha < 2 ^ 128 ->
  generate_keys aes d alpha beta s0 s1 = Ok ks -> accepted d alpha' beta' -> apart aes ps d f ks alpha alpha' ->
  let uses := path_uses aes ps d (key_of (negb f) ks) alpha in
  exists aes1, generate_keys aes1 d alpha' beta' s0 s1 = Ok ks /\
    path_uses aes1 ps d (key_of (negb f) ks) alpha' = uses /\ agree_off uses aes aes1 /\
    (on_blocks aes -> s0 < 2 ^ 128 -> s1 < 2 ^ 128 -> on_blocks aes1) /\
    (* and no program that has the key and the cipher notices, unless it asks for one of those blocks *)
    forall adversary : dkey -> oracle_program, disjoint (asked aes (adversary (key_of f ks))) uses ->
      run_program aes1 (adversary (key_of f ks)) = run_program aes (adversary (key_of f ks)) /\
      asked aes1 (adversary (key_of f ks)) = asked aes (adversary (key_of f ks)).
Proof.
  intros F ps types d HC f aes alpha beta s0 s1 ks alpha' beta' Ha HG Hacc (HN & _ & HD) uses.
  destruct (hides F ps types d HC aes f alpha beta s0 s1 ks alpha' beta' Ha HG Hacc HN HD) as (aes1 & H1 & H2 & H3 & H4).
  exists aes1. split; [exact H1|]. split; [exact H2|]. split; [exact H3|]. split; [exact H4|].
  intros adversary HQ. apply (program_agree uses); auto.
Qed.
Print Assumptions C48_hides.

(** * C49: exactly the same distribution, for types without IntModN *)

(** Exchanging (alpha, beta) and (alpha', beta') is a bijection on the block ciphers where
    the parties' blocks do not coincide.  So among those ciphers, any key pair, and with it
    anything that either party computes without asking for the other party's blocks, has
    the same number of causes for (alpha, beta) as for (alpha', beta'). *)
Theorem C49_bijection : forall F ps types d, created F ps types d -> no_int_mod_n ps ->
  forall (f : bool) s0 s1, s0 < 2 ^ 128 -> s1 < 2 ^ 128 ->
  exists exchange : N -> list pvalue -> N -> list pvalue -> (N -> N -> N) -> (N -> N -> N),
  forall alpha beta alpha' beta' aes ks, alpha < 2 ^ 128 -> accepted d alpha' beta' -> on_blocks aes ->
    generate_keys aes d alpha beta s0 s1 = Ok ks -> apart aes ps d f ks alpha alpha' ->
    let aes1 := exchange alpha beta alpha' beta' aes in
    let uses := path_uses aes ps d (key_of (negb f) ks) alpha in
    on_blocks aes1 /\ generate_keys aes1 d alpha' beta' s0 s1 = Ok ks /\ apart aes1 ps d f ks alpha' alpha /\
    path_uses aes1 ps d (key_of (negb f) ks) alpha' = uses /\ agree_off uses aes aes1 /\
    (forall k x, exchange alpha' beta' alpha beta aes1 k x = aes k x) /\
    forall adversary : dkey -> oracle_program, disjoint (asked aes (adversary (key_of f ks))) uses ->
      run_program aes1 (adversary (key_of f ks)) = run_program aes (adversary (key_of f ks)) /\
      asked aes1 (adversary (key_of f ks)) = asked aes (adversary (key_of f ks)).
Proof.
  intros F ps types d HC Hd f s0 s1 H0 H1. exists (exchange ps d f s0 s1).
  intros alpha beta alpha' beta' aes ks Ha Hacc HA HG Hap aes1 uses.
  destruct (exchange_ok F ps types d HC Hd f s0 s1 alpha beta alpha' beta' aes ks Ha Hacc H0 H1 HA HG Hap)
    as (E1 & E2 & E3 & E4 & E5 & E6). fold aes1 in E1, E2, E3, E4, E5, E6.
  do 6 (split; [assumption|]). intros adversary HQ. apply (program_agree uses); auto.
Qed.
Print Assumptions C49_bijection.

(** * The hypotheses can be met *)

Definition use_eqb (a b : N * N) : bool := (fst a =? fst b) && (snd a =? snd b).
Definition disjointb (l l' : list (N * N)) : bool := forallb (fun q => negb (existsb (use_eqb q) l')) l.
Fixpoint nodupb (l : list (N * N)) : bool :=
  match l with [] => true | q :: l' => negb (existsb (use_eqb q) l') && nodupb l' end.
Lemma use_in : forall q l, existsb (use_eqb q) l = false -> ~ In q l.
Proof.
  intros q l H Hin. assert (existsb (use_eqb q) l = true); [|congruence].
  apply existsb_exists. exists q. split; auto. unfold use_eqb. rewrite !N.eqb_refl. reflexivity.
Qed.
Lemma disjointb_ok : forall l l', disjointb l l' = true -> disjoint l l'.
Proof.
  intros l l' H q Hq. unfold disjointb in H. rewrite forallb_forall in H. specialize (H q Hq).
  apply negb_true_iff in H. apply use_in; auto.
Qed.
Lemma nodupb_ok : forall l, nodupb l = true -> NoDup l.
Proof.
  induction l as [|q l IH]; intros H; constructor; cbn [nodupb] in H; apply andb_true_iff in H; destruct H as [H1 H2]; auto.
  apply negb_true_iff in H1. apply use_in; auto.
Qed.

Lemma ex_on_blocks : on_blocks ex_aes.
Proof. intros k x _. apply ex_aes_lt. Qed.
Definition xv_beta : list pvalue :=
  [to_value (TInt 8) (VNum 0); to_value ex_tuple (VTup [VNum 65535; VNum 3]); to_value (TInt 64) (VNum 1)].
Lemma xv_accepted : accepted ex_d 17 xv_beta.
Proof.
  split; [reflexivity|]. exists ex_aes, 1, 2. eexists. vm_compute. reflexivity.
Qed.
Lemma xv_apart : forall f, apart ex_aes ex_ps ex_d f (ex_k0, ex_k1) ex_alpha 17.
Proof.
  intros []; (split; [apply nodupb_ok; vm_compute; reflexivity|]);
    (split; apply disjointb_ok; vm_compute; reflexivity).
Qed.
Definition xv_adversary (k : dkey) : oracle_program :=
  Ask kPrgKeyLeft (key_seed k) (fun y => Ask kPrgKeyRight y (fun z => Output (N.odd z))).
Example C47_C48_nonvacuous :
  created ex_F ex_ps ex_types ex_d /\ ex_alpha < 2 ^ 128 /\ on_blocks ex_aes /\
  generate_keys ex_aes ex_d ex_alpha ex_beta 0x0123456789abcdef0123456789abcdef 0xfedcba98765432100123456789abcdef
    = Ok (ex_k0, ex_k1) /\
  key_shape ex_ps ex_d 0 ex_k0 /\ key_shape ex_ps ex_d 1 ex_k1 /\
  accepted ex_d 17 xv_beta /\ (forall f, apart ex_aes ex_ps ex_d f (ex_k0, ex_k1) ex_alpha 17) /\
  length (path_uses ex_aes ex_ps ex_d ex_k1 ex_alpha) = 20%nat /\
  disjoint (asked ex_aes (xv_adversary ex_k0)) (path_uses ex_aes ex_ps ex_d ex_k1 ex_alpha).
Proof.
  split; [exact ex_created|]. split; [reflexivity|]. split; [exact ex_on_blocks|]. split; [exact ex_generated|].
  destruct (C47_shape _ _ _ _ ex_created ex_aes ex_alpha ex_beta _ _ _ _ eq_refl ex_generated) as [H0 H1].
  split; [exact H0|]. split; [exact H1|]. split; [exact xv_accepted|]. split; [exact xv_apart|].
  split; [vm_compute; reflexivity|]. apply disjointb_ok. vm_compute. reflexivity.
Qed.
(** Seeds for the other party. *)
Definition xv_seeds (i : nat) : N := 2 ^ 77 + 1000 * N.of_nat i.
Example C48_consistent_nonvacuous :
  key_shape ex_ps ex_d 0 ex_k0 /\ accepted ex_d 17 xv_beta /\
  (forall i, (0 < i <= d_levels ex_d - 1)%nat -> N.even (xv_seeds i) = true) /\
  NoDup (seed_uses ex_d xv_seeds) /\ disjoint (path_uses ex_aes ex_ps ex_d ex_k0 17) (seed_uses ex_d xv_seeds).
Proof.
  split; [apply C47_C48_nonvacuous|]. split; [exact xv_accepted|].
  split.
  { intros i _. unfold xv_seeds. rewrite N.even_add, N.even_mul. reflexivity. }
  split; [apply nodupb_ok; vm_compute; reflexivity|apply disjointb_ok; vm_compute; reflexivity].
Qed.
Definition xv3_beta (a b : N) : list pvalue := [to_value (TInt 32) (VNum a); to_value (TInt 32) (VNum b)].
Definition xv3_keys : dkey * dkey := Eval vm_compute in
  match generate_keys ex_aes ex3_d 77 (xv3_beta 5 6) (2 ^ 100) (2 ^ 90) with Ok ks => ks | _ => (ex_k0, ex_k1) end.
Lemma ex3_no_mod : no_int_mod_n ex3_ps.
Proof.
  intros h T (Hok & p & Hp & HD). destruct h as [|[|[|h]]]; cbn in Hp; try discriminate; injection Hp as <-;
    inversion HD; subst; reflexivity.
Qed.
Example C49_nonvacuous :
  created ex_F ex3_ps [] ex3_d /\ no_int_mod_n ex3_ps /\ on_blocks ex_aes /\
  accepted ex3_d 77 (xv3_beta 5 6) /\ accepted ex3_d 12 (xv3_beta 0 1) /\
  generate_keys ex_aes ex3_d 77 (xv3_beta 5 6) (2 ^ 100) (2 ^ 90) = Ok xv3_keys /\
  forall f, apart ex_aes ex3_ps ex3_d f xv3_keys 77 12.
Proof.
  split; [exact ex3_created|]. split; [exact ex3_no_mod|]. split; [exact ex_on_blocks|].
  split; [split; [reflexivity|]; exists ex_aes, 1, 2; eexists; vm_compute; reflexivity|].
  split; [split; [reflexivity|]; exists ex_aes, 1, 2; eexists; vm_compute; reflexivity|].
  split; [vm_compute; reflexivity|].
  intros []; (split; [apply nodupb_ok; vm_compute; reflexivity|]);
    (split; apply disjointb_ok; vm_compute; reflexivity).
Qed.
(** The exchanged cipher, computed: it is a different cipher and gives the same keys. *)
Example C49_computed :
  let aes1 := exchange ex3_ps ex3_d true (2 ^ 100) (2 ^ 90) 77 (xv3_beta 5 6) 12 (xv3_beta 0 1) ex_aes in
  generate_keys aes1 ex3_d 12 (xv3_beta 0 1) (2 ^ 100) (2 ^ 90) = Ok xv3_keys /\
  existsb (fun q => negb (aes1 (fst q) (snd q) =? ex_aes (fst q) (snd q)))
          (path_uses ex_aes ex3_ps ex3_d (fst xv3_keys) 77) = true.
Proof. split; vm_compute; reflexivity. Qed.
