(** C79: the distribution of a whole key, IntModN included. *)
From Coq Require Import List NArith ZArith Bool Lia.
From Verif Require Import Base ListUtil ValueTypesModel ValueTypesSpec ValueTypesProofs TypeProofs DpfModel DpfTree DpfWf DpfSpec DpfPoint DpfHist
  DpfFacts DpfCreate DpfExamples SampleSpec DpfPrivacySpec DpfPrivacy DpfHide DpfBiject CorrectionSpec CorrectionProofs KeyDistSpec KeyDistProofs KeyDist
  PropertiesPrivacy.
Import ListNotations.
Open Scope N_scope.

(** * C79 *)

(** Fix party [f]'s key up to its values, the seeds of the other party along the path of alpha, and the block
    cipher except where the other party uses it along that path.  The ciphers that remain for an accepted alpha
    are enumerated by the contents of the bytes that the other party's seeds expand to: for every content there
    is one, and there are no others, whatever beta is.  Over all contents, the bit that a program outputs which
    is given the key and may ask the cipher (but not for the other party's blocks) is 1 almost equally often for
    any two accepted (alpha, beta) and (alpha', beta'): exactly equally often if no level has an IntModN ([cost] is 0). *)
Theorem C79_key : forall F ps types d, created F ps types d ->
  forall (f : bool) aes key (seeds : nat -> N),
  key_shape ps d (if f then 1 else 0)%Z key ->
  (forall i, (0 < i <= d_levels d - 1)%nat -> N.even (seeds i) = true) ->
  NoDup (seed_uses d seeds) ->
  let s0 := if f then seeds 0%nat else key_seed key in
  let s1 := if f then key_seed key else seeds 0%nat in
  let fixed aes1 ks alpha := same_tree (key_of f ks) key /\
    (forall i, (i <= d_levels d - 1)%nat -> fst (path_node aes1 (last_ld ps) (key_of (negb f) ks) alpha i) = seeds i) /\
    agree_off (seed_uses d seeds) aes aes1 in
  let expansions aes1 := map (fun h => expansion aes1 (nth h (d_blocks d) 0%nat) (seeds (nth h (d_h2t d) 0%nat)))
                             (seq 0 (length ps)) in
  exists cipher : N -> list bytes -> N -> N -> N,
  (forall alpha beta, accepted d alpha beta -> disjoint (path_uses aes ps d key alpha) (seed_uses d seeds) ->
     (forall w, In w (contents d) -> exists ks,
        generate_keys (cipher alpha w) d alpha beta s0 s1 = Ok ks /\ fixed (cipher alpha w) ks alpha /\
        expansions (cipher alpha w) = w /\
        (on_blocks aes -> key_blocks key -> (forall i, (i <= d_levels d - 1)%nat -> seeds i < 2 ^ 128) ->
         on_blocks (cipher alpha w))) /\
     (forall aes1 ks, on_blocks aes1 -> generate_keys aes1 d alpha beta s0 s1 = Ok ks -> fixed aes1 ks alpha ->
        In (expansions aes1) (contents d) /\ forall k x, aes1 k x = cipher alpha (expansions aes1) k x)) /\
  forall cost, (forall h T, level_has ps h T -> type_bias T <= cost h) ->
  forall alpha beta alpha' beta' (adversary : dkey -> oracle_program),
  accepted d alpha beta -> accepted d alpha' beta' ->
  disjoint (path_uses aes ps d key alpha) (seed_uses d seeds) -> disjoint (path_uses aes ps d key alpha') (seed_uses d seeds) ->
  (forall k, same_tree k key -> disjoint (asked aes (adversary k)) (seed_uses d seeds)) ->
  let outputs a b :=
    count (fun w => passes f (fun k => run_program (cipher a w) (adversary k)) (generate_keys (cipher a w) d a b s0 s1)) (contents d) in
  2 ^ 129 * dist (outputs alpha beta) (outputs alpha' beta') <=
  sumN (map cost (seq 0 (length ps))) * N.of_nat (length (contents d)).
Proof.
  intros F ps types d HC f aes key seeds HS Hsb HND s0 s1 fixed expansions.
  assert (HS' : key_shape ps d (party_of f) key) by (destruct f; exact HS).
  pose proof (created_len _ _ _ _ HC) as HLn.
  assert (Hex : forall aes1, expansions aes1 = map (fun h => DpfGen.node_bytes aes1 d h (seeds (h2t d h))) (seq 0 (nlevels d))).
  { intros aes1. unfold expansions. rewrite HLn. apply map_ext. intros h. apply expansion_node. }
  exists (cipher d aes f key seeds). split.
  - intros alpha beta Hacc HD. split.
    + intros w Hw. destruct (key_generated F ps types d HC aes f key seeds HS' Hsb HND alpha beta w Hacc Hw HD) as (K1 & K2 & K3 & K4 & K5).
      eexists. split; [exact K1|]. split; [|split; [|exact K4]].
      * split; [|split; [exact K2|exact K3]].
        pose proof (key_tree F ps types d HC aes f key seeds HS' Hsb HND alpha beta w) as HT. destruct f; exact HT.
      * rewrite Hex. apply contents_in in Hw. destruct Hw as [HL _].
        apply nth_ext with (d := []) (d' := []); rewrite map_length, seq_length; [auto|].
        intros h Hh. rewrite nth_map_seq by lia. auto.
    + intros aes1 ks HB HG (F1 & F2 & F3). rewrite Hex. eapply cipher_complete; eauto. apply Hacc.
  - intros cost Hcost alpha beta alpha' beta' adversary Hacc Hacc' HD HD' HQ outputs.
    apply (key_distance F ps types d HC aes f key seeds HS' Hsb HND cost Hcost); auto.
Qed.
Print Assumptions C79_key.

(** * The hypotheses can be met *)

(** Three levels, the second with an IntModN; party 0's key; two alphas and betas; a program that uses the values. *)
Definition xs_cost (h : nat) : N := if Nat.eqb h 1 then 1000003 else 0.
Definition xs_adversary (k : dkey) : oracle_program :=
  Ask kPrgKeyLeft (key_seed k) (fun y => Output (match k_last k with v :: _ => match from_value (TInt 64) v with Ok (VNum x) => xorb (N.odd y) (x <? 2 ^ 63) | _ => true end | [] => false end)).
Lemma xs_costs : forall h T, level_has ex_ps h T -> type_bias T <= xs_cost h.
Proof.
  intros h T (Hok & p & Hp & HD). destruct h as [|[|[|h]]]; cbn in Hp; try (destruct h; discriminate); injection Hp as <-; cbn [p_type p_vt] in HD.
  - inversion HD; subst; discriminate.
  - assert (T = ex_tuple) as ->; [|discriminate].
    eapply denotes_fun; [exact HD|apply (to_value_type_denotes ex_tuple); reflexivity].
  - inversion HD; subst; discriminate.
Qed.
Example C79_nonvacuous :
  created ex_F ex_ps ex_types ex_d /\ key_shape ex_ps ex_d 0 ex_k0 /\ accepted ex_d ex_alpha ex_beta /\ accepted ex_d 17 xv_beta /\
  (forall i, (0 < i <= d_levels ex_d - 1)%nat -> N.even (xv_seeds i) = true) /\ NoDup (seed_uses ex_d xv_seeds) /\
  disjoint (path_uses ex_aes ex_ps ex_d ex_k0 ex_alpha) (seed_uses ex_d xv_seeds) /\
  disjoint (path_uses ex_aes ex_ps ex_d ex_k0 17) (seed_uses ex_d xv_seeds) /\
  (forall k, same_tree k ex_k0 -> disjoint (asked ex_aes (xs_adversary k)) (seed_uses ex_d xv_seeds)) /\
  (forall h T, level_has ex_ps h T -> type_bias T <= xs_cost h) /\ sumN (map xs_cost (seq 0 (length ex_ps))) = 1000003 /\
  In [repeat 1 16; repeat 2 (16 * nth 1 (d_blocks ex_d) 0%nat); repeat 3 16] (contents ex_d).
Proof.
  destruct C48_consistent_nonvacuous as (H1 & H2 & H3 & H4 & H5). split; [exact ex_created|]. split; [exact H1|].
  split; [split; [reflexivity|]; exists ex_aes, 1, 2; eexists; vm_compute; reflexivity|].
  split; [exact H2|]. split; [exact H3|]. split; [exact H4|].
  split; [apply disjointb_ok; vm_compute; reflexivity|]. split; [exact H5|]. split.
  { intros k (Hk & _). unfold xs_adversary, key_seed. rewrite Hk. apply disjointb_ok. vm_compute. reflexivity. }
  split; [exact xs_costs|]. split; [reflexivity|].
  apply contents_in. split; [reflexivity|]. intros h Hh.
  destruct h as [|[|[|h]]]; [| | |exfalso; cbn in Hh; lia]; (split; [reflexivity|]); repeat constructor.
Qed.
(** The generated key depends on the content. *)
Example C79_computed :
  let key w := match generate_keys (cipher ex_d ex_aes false ex_k0 xv_seeds 17 w) ex_d 17 xv_beta (key_seed ex_k0) (xv_seeds 0%nat) with
               | Ok ks => Some (k_last (fst ks)) | _ => None end in
  let n := (16 * nth 1 (d_blocks ex_d) 0)%nat in
  key [repeat 1 16; repeat 2 n; repeat 3 16] <> key [repeat 1 16; repeat 2 n; repeat 4 16] /\
  key [repeat 1 16; repeat 2 n; repeat 3 16] <> None.
Proof. split; vm_compute; discriminate. Qed.
