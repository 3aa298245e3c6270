(** C84: the number of calls to OpenSSL. *)
From Coq Require Import List NArith ZArith QArith Bool Lia ZifyBool ZifyNat ZifyN.
From Verif Require Import Base ListUtil ValueTypesModel ValueTypesSpec TypeProofs DpfModel DpfTree DpfWf DpfGen DpfSpec DpfEval DpfCtx DpfHist DpfReach DpfFacts
  DpfExamples DcfModel DcfSpec DcfProofs MicProofs PropertiesDcf PropertiesMic FaultModel CostSpec CostProofs.
Import ListNotations.
Open Scope N_scope.

(** * C84 *)

(** Creation: three keys, with two calls each. *)
Theorem C84_create : forall status F ps, makes_calls (create_incremental_f status F ps) 6.
Proof.
  intros status F ps n a n' E. unfold create_incremental_f in E.
  assert (HC : does (hash_create_f status) (fun _ => True) 2).
  { intros k b k' H. unfold hash_create_f, bind_f in H. destruct (status k =? 1)%Z; cbn [check] in H; [|discriminate].
    split; [exact I|]. inversion H. lia. }
  refine (proj2 (does_bind0 _ _ _ _ (fun _ => True) (fun _ => True) 6 (does_lift _ _ _ (fun _ _ => I)) _ n a n' E)).
  intros d _. apply (does_bind _ _ _ _ (fun _ => True) _ 2 4 HC). intros _ _. apply (does_bind _ _ _ _ (fun _ => True) _ 2 2 HC). intros _ _.
  apply (does_bind _ _ _ _ (fun _ => True) _ 2 0 HC). intros _ _. apply does_lift. auto.
Qed.
Print Assumptions C84_create.

(** Generation of keys: for all inputs, seeds and blocks. *)
Theorem C84_keys : forall F ps types d, created F ps types d -> forall aes status random alpha beta,
  makes_calls (generate_keys_f aes status random d alpha beta) (key_calls d (length ps)).
Proof.
  intros F ps types d HC aes status random alpha beta n a n' E. rewrite <- (created_len _ _ _ _ HC).
  exact (proj2 (cost_keys aes status d random alpha beta (proj1 (created_wf _ _ _ _ HC)) n a n' E)).
Qed.
Print Assumptions C84_keys.

(** Evaluation without a context: for all keys, and all points of the same number. *)
Theorem C84_evaluate_at : forall F ps types d, created F ps types d -> forall aes status T key h points,
  makes_calls (evaluate_at_f aes status d T key h points) (at_calls d 0 (Z.to_nat h) (length points)).
Proof.
  intros F ps types d HC aes status T key h points n a n' E.
  exact (proj2 (cost_at aes status d T key h points (proj1 (created_wf _ _ _ _ HC)) n a n' E)).
Qed.
Print Assumptions C84_evaluate_at.

Lemma start_stored : forall d c stored h,
  match stored with
  | None => c_partials c = []
  | Some (q, l) => (q < nlevels d)%nat /\ c_plevel c = Z.of_nat q /\ l <> [] /\ c_partials c <> [] /\
      forall y, In y (map pe_prefix (c_partials c)) <-> In y (map (fun x => domain_to_tree_index d x q) l)
  end -> start_of d c h = stored_level d stored h.
Proof.
  intros d c stored h H. unfold start_of, stored_level. destruct stored as [[q l]|].
  - destruct H as (_ & -> & _ & Hn & _). rewrite Nat2Z.id. destruct (c_partials c); [congruence|]. reflexivity.
  - rewrite H. reflexivity.
Qed.

(** With the context of any history of successful calls. *)
Theorem C84_evaluate_at_context : forall F ps types d, created F ps types d -> all_typed ps -> forall aes key c prev stored,
  after aes d ps key c prev stored -> forall status T h points,
  makes_calls_ctx (evaluate_at_ctx_f aes status d T h points c) (at_calls d (stored_level d stored (Z.to_nat h)) (Z.to_nat h) (length points)).
Proof.
  intros F ps types d HC HTy aes key c prev stored HA status T h points n a c' n' E.
  destruct (after_inv aes F ps types d HC HTy _ _ _ _ HA) as (_ & _ & Hst). rewrite <- (start_stored d c stored (Z.to_nat h) Hst).
  exact (proj2 (cost_at_ctx aes status d T h points c (proj1 (created_wf _ _ _ _ HC)) n a c' n' E)).
Qed.
Print Assumptions C84_evaluate_at_context.

Theorem C84_evaluate_until : forall F ps types d, created F ps types d -> all_typed ps -> forall aes key c prev stored,
  after aes d ps key c prev stored -> forall status T h prefixes, cty_ok T = true ->
  makes_calls_ctx (evaluate_until_f aes status d T h prefixes c) (until_calls ps d prev stored (Z.to_nat h) prefixes).
Proof.
  intros F ps types d HC HTy aes key c prev stored HA status T h prefixes HT n a c' n' E.
  pose proof (proj1 (created_wf _ _ _ _ HC)) as W.
  destruct (after_inv aes F ps types d HC HTy _ _ _ _ HA) as (HI & Hp & Hst).
  assert (HK : key_ok d (ctx_key c)) by (rewrite (ctx_inv_key _ _ _ _ HI); exact (inv_key_ok _ _ _ _ HI)).
  rewrite (proj2 (cost_until aes status d T h prefixes c W HT HK n a c' n' E)). f_equal.
  unfold evaluate_until_f, bind_c, lift in E. destruct (evaluate_until_checks d T h prefixes c) as [g| | |] eqn:EC; try discriminate. clear E.
  destruct (until_checks_inv d W _ _ _ _ _ HT EC) as (Hh & _ & Ho & He & _). rewrite Hp in *.
  unfold until_cost, until_calls. destruct prev as [q|]; cbn [prev_z] in *.
  - destruct (Nat.eqb_spec (length prefixes) 0) as [E|E].
    { exfalso. assert (Hn : prefixes = []) by (destruct prefixes; [reflexivity|discriminate]). apply He in Hn. lia. }
    rewrite Hp. cbn [prev_z]. rewrite !Nat2Z.id, (start_stored d c stored q Hst). unfold parents, nodes_of, tree_level_of. fold (h2t d q).
    rewrite (created_ld _ _ _ _ q HC) by (rewrite <- (created_len _ _ _ _ HC); lia).
    assert (EQ : map (fun p => domain_to_tree_index d p q) prefixes = map (fun p => p / 2 ^ (N.of_nat (ld d q) - N.of_nat (h2t d q))) prefixes).
    { apply map_ext. intros p. unfold domain_to_tree_index, block_bits. rewrite N.shiftr_div_pow2, Nat2N.inj_sub. reflexivity. }
    rewrite EQ. reflexivity.
  - assert (Hn : prefixes = []) by (apply He; lia). rewrite Hn. reflexivity.
Qed.
Print Assumptions C84_evaluate_until.
Theorem C84_evaluate_next : forall F ps types d, created F ps types d -> all_typed ps -> forall aes key c prev stored,
  after aes d ps key c prev stored -> forall status T prefixes, cty_ok T = true ->
  makes_calls_ctx (evaluate_next_f aes status d T prefixes c)
    (until_calls ps d prev stored (match prev with Some q => S q | None => 0%nat end) prefixes).
Proof.
  intros F ps types d HC HTy aes key c prev stored HA status T prefixes HT n a c' n' E.
  pose proof (proj1 (created_wf _ _ _ _ HC)) as W.
  destruct (after_inv aes F ps types d HC HTy _ _ _ _ HA) as (_ & Hp & _). unfold evaluate_next_f in E. destruct (Nat.eqb_spec (length prefixes) 0) as [E0|E0].
  - pose proof (C84_evaluate_until F ps types d HC HTy aes key c prev stored HA status T 0 prefixes HT n a c' n' E) as HR.
    destruct prev as [q|]; [|exact HR]. exfalso. unfold evaluate_until_f, bind_c, lift in E.
    destruct (evaluate_until_checks d T 0 prefixes c) as [g| | |] eqn:EC; try discriminate.
    destruct (until_checks_inv d W _ _ _ _ _ HT EC) as (_ & _ & Ho & _). rewrite Hp in Ho. cbn [prev_z] in Ho. lia.
  - pose proof (C84_evaluate_until F ps types d HC HTy aes key c prev stored HA status T (c_prev c + 1) prefixes HT n a c' n' E) as HR.
    rewrite Hp in HR. destruct prev as [q|]; cbn [prev_z] in HR.
    + replace (Z.to_nat (Z.of_nat q + 1)) with (S q) in HR by lia. exact HR.
    + exact HR.
Qed.
Print Assumptions C84_evaluate_next.

(** EvaluateAndApply, if the callback never stops it: one point for each key. *)
Theorem C84_evaluate_and_apply : forall F ps types d, created F ps types d ->
  forall aes status T keys points S (op : S -> list cval -> S * bool) rightshift s, (forall s v, snd (op s v) = true) ->
  makes_calls (evaluate_and_apply_f aes status d T keys points op rightshift s) (apply_calls d (length ps) (length keys)).
Proof.
  intros F ps types d HC aes status T keys points S op rs s Hop n a n' E. rewrite <- (created_len _ _ _ _ HC).
  destruct (cost_apply aes status d S T keys points rs op (fun _ => true) s) with (k := n) (s' := a) (k' := n') as [HL ->].
  - intros s0 v H. rewrite Hop in H. discriminate.
  - exact (proj1 (created_wf _ _ _ _ HC)).
  - exact E.
  - reflexivity.
  - rewrite HL. reflexivity.
Qed.
Print Assumptions C84_evaluate_and_apply.

Lemma dcf_wf : forall F p types c, dcf_created F p types c -> wf (dc_dpf c) /\ nlevels (dc_dpf c) = Z.to_nat (p_ld p).
Proof.
  intros F p types c HD. pose proof (dcf_created_facts _ _ _ _ HD) as (HC & _ & _). split; [exact (proj1 (created_wf _ _ _ _ HC))|].
  rewrite (created_len _ _ _ _ HC). apply dcf_len.
Qed.

(** The comparison function: as many hierarchy levels as bits. *)
Theorem C84_dcf_keys : forall F p types c, dcf_created F p types c -> forall aes status random alpha beta,
  makes_calls (dcf_generate_keys_f aes status random c alpha beta) (key_calls (dc_dpf c) (Z.to_nat (p_ld p))).
Proof.
  intros F p types c HD aes status random alpha beta n a n' E. destruct (dcf_wf _ _ _ _ HD) as [W <-].
  exact (proj2 (cost_dcf_keys aes status random c alpha beta W n a n' E)).
Qed.
Print Assumptions C84_dcf_keys.
Theorem C84_dcf_evaluate : forall F p types c, dcf_created F p types c -> forall aes status T keys points output,
  makes_calls (dcf_batch_evaluate_f aes status c T keys points output) (apply_calls (dc_dpf c) (Z.to_nat (p_ld p)) (length points)).
Proof.
  intros F p types c HD aes status T keys points output n a n' E. destruct (dcf_wf _ _ _ _ HD) as [W <-].
  exact (proj2 (cost_dcf_eval aes status c T keys points output W n a n' E)).
Qed.
Print Assumptions C84_dcf_evaluate.

(** The interval gate. *)
Theorem C84_mic_keys : forall F mp m, mic_create F mp = Ok m -> forall aes status random r_in r_out,
  makes_calls (mic_gen_f aes status random m r_in r_out)
    (key_calls (dc_dpf (m_dcf m)) (Z.to_nat (mp_log mp)) + length (mp_intervals mp)).
Proof.
  intros F mp m HM aes status random r_in r_out n a n' E. destruct (mic_facts F mp m HM) as (Hp & HD & _).
  destruct (dcf_wf _ _ _ _ HD) as [W HL]. cbn [p_ld] in HL. rewrite <- HL.
  destruct (cost_mic_keys aes status random m r_in r_out W n a n' E) as [HR ->]. rewrite Hp in HR. rewrite HR. reflexivity.
Qed.
Print Assumptions C84_mic_keys.
Theorem C84_mic_evaluate : forall F mp m, mic_create F mp = Ok m -> forall aes status keys points,
  makes_calls (mic_batch_eval_f aes status m keys points)
    (2 * apply_calls (dc_dpf (m_dcf m)) (Z.to_nat (mp_log mp)) (length keys * length (mp_intervals mp))).
Proof.
  intros F mp m HM aes status keys points n a n' E. destruct (mic_facts F mp m HM) as (Hp & HD & _).
  destruct (dcf_wf _ _ _ _ HD) as [W HL]. cbn [p_ld] in HL. rewrite <- HL, <- Hp.
  exact (proj2 (cost_mic_eval aes status m keys points W n a n' E)).
Qed.
Print Assumptions C84_mic_evaluate.

(** Hence the numbers for any two secrets, keys, seeds and blocks agree. *)
Theorem C84_keys_independent : forall F ps types d, created F ps types d ->
  forall aes aes' status status' random random' alpha alpha' beta beta' n n' ks ks' m m',
  generate_keys_f aes status random d alpha beta n = (Ok ks, m) -> generate_keys_f aes' status' random' d alpha' beta' n' = (Ok ks', m') ->
  (m - n = m' - n')%nat.
Proof.
  intros F ps types d HC aes aes' status status' random random' alpha alpha' beta beta' n n' ks ks' m m' E E'.
  rewrite (C84_keys F ps types d HC aes status random alpha beta n ks m E).
  rewrite (C84_keys F ps types d HC aes' status' random' alpha' beta' n' ks' m' E'). lia.
Qed.
Print Assumptions C84_keys_independent.
Theorem C84_evaluate_independent : forall F ps types d, created F ps types d -> all_typed ps ->
  forall aes aes' key key' c c' prev stored, after aes d ps key c prev stored -> after aes' d ps key' c' prev stored ->
  forall status status' T h prefixes n n' r r' c1 c1' m m', cty_ok T = true ->
  (evaluate_until_f aes status d T h prefixes c n = (Ok r, c1, m) -> evaluate_until_f aes' status' d T h prefixes c' n' = (Ok r', c1', m') ->
   (m - n = m' - n')%nat) /\
  (evaluate_at_ctx_f aes status d T h prefixes c n = (Ok r, c1, m) -> evaluate_at_ctx_f aes' status' d T h prefixes c' n' = (Ok r', c1', m') ->
   (m - n = m' - n')%nat).
Proof.
  intros F ps types d HC HTy aes aes' key key' c c' prev stored HA HA' status status' T h prefixes n n' r r' c1 c1' m m' HT. split; intros E E'.
  - rewrite (C84_evaluate_until F ps types d HC HTy _ _ _ _ _ HA status T h prefixes HT _ _ _ _ E).
    rewrite (C84_evaluate_until F ps types d HC HTy _ _ _ _ _ HA' status' T h prefixes HT _ _ _ _ E'). lia.
  - rewrite (C84_evaluate_at_context F ps types d HC HTy _ _ _ _ _ HA status T h prefixes _ _ _ _ E).
    rewrite (C84_evaluate_at_context F ps types d HC HTy _ _ _ _ _ HA' status' T h prefixes _ _ _ _ E'). lia.
Qed.
Print Assumptions C84_evaluate_independent.

(** ** Non-vacuity *)

Definition xct_ok (n : nat) : Z := 1%Z.
Definition xct_random (n : nat) : N := if Nat.eqb n 0 then 0x0123456789abcdef0123456789abcdef else 0xfedcba98765432100123456789abcdef.
Definition xct_other (n : nat) : N := if Nat.eqb n 0 then 0x1 else 0x2.

(** The hypotheses hold for the DPF of the examples; the number of calls for its keys. *)
Lemma xct_typed : all_typed ex_ps.
Proof.
  intros h Hh. destruct h as [|[|[|h]]]; [..|cbn in Hh; lia]; eexists.
  - exact ex_level_0.
  - exact ex_level_1.
  - exact ex_level_2.
Qed.
Example C84_keys_nonvacuous :
  created ex_F ex_ps ex_types ex_d /\ key_calls ex_d 3 = 21%nat /\
  (exists ks, generate_keys_f ex_aes xct_ok xct_random ex_d ex_alpha ex_beta 5%nat = (Ok ks, 26%nat)) /\
  (exists ks, generate_keys_f ex_aes xct_ok xct_other ex_d 0 ex_beta 0%nat = (Ok ks, 21%nat)).
Proof. split; [exact ex_created|]. split; [vm_compute; reflexivity|]. split; eexists; vm_compute; reflexivity. Qed.
(** 70 points are more than one batch; contexts without and with stored nodes (C05). *)
Example C84_evaluate_nonvacuous :
  all_typed ex_ps /\ after ex_aes ex_d ex_ps ex4_key ex5_c2 (Some 1%nat) (Some (0%nat, [3; 2])) /\
  at_calls ex_d 0 2 70 = 34%nat /\
  (exists v, evaluate_at_f ex_aes xct_ok ex_d (TInt 64) ex_k0 2 (map (fun x => N.of_nat x * 3) (seq 0 70)) 0%nat = (Ok v, 34%nat)) /\
  until_calls ex_ps ex_d (Some 1%nat) (Some (0%nat, [3; 2])) 2 [47; 63] = 17%nat /\
  (exists v c, evaluate_until_f ex_aes xct_ok ex_d (TInt 64) 2 [47; 63] ex5_c2 0%nat = (Ok v, c, 17%nat)) /\
  (exists v c, evaluate_until_f ex_aes xct_ok ex_d (TInt 64) 2 [] ex5_c0 0%nat = (Ok v, c, until_calls ex_ps ex_d None None 2 [])) /\
  stored_level ex_d (Some (0%nat, [3; 2])) 2 = tree_level_of ex_d 0 /\
  (exists v c, evaluate_at_ctx_f ex_aes xct_ok ex_d (TInt 64) 2 [300; 511] ex5_c2 0%nat = (Ok v, c, 17%nat)).
Proof.
  split; [exact xct_typed|]. split; [exact ex5_after2|]. split; [vm_compute; reflexivity|]. split; [eexists; vm_compute; reflexivity|].
  split; [vm_compute; reflexivity|]. split; [do 2 eexists; vm_compute; reflexivity|]. split; [do 2 eexists; vm_compute; reflexivity|].
  split; [vm_compute; reflexivity|]. do 2 eexists; vm_compute; reflexivity.
Qed.
Example C84_fss_nonvacuous :
  dcf_created ex_F xd_p [ex_tuple] xd_c /\ mic_create ex_F xm_mp = Ok xm_m /\
  (exists v, dcf_batch_evaluate_f ex_aes xct_ok xd_c ex_tuple (map dp_key0 xd_gs) [3; 19; 31] (map (fun _ => vzero ex_tuple) xd_gs) 0%nat = (Ok v, 13%nat)) /\
  (exists ks, dcf_generate_keys_f ex_aes xct_ok xct_random xd_c 19 (xd_beta 1 2) 0%nat = (Ok ks, key_calls (dc_dpf xd_c) 5)) /\
  (exists ks, mic_gen_f ex_aes xct_ok xct_random xm_m 13 [1; 15; 7] 0%nat = (Ok ks, S (S (S (key_calls (dc_dpf (m_dcf xm_m)) (Z.to_nat (mp_log xm_mp))))))) /\
  (exists v, mic_batch_eval_f ex_aes xct_ok xm_m (map mg_key0 xm_gs) [3; 4] 0%nat =
             (Ok v, Nat.mul 2 (apply_calls (dc_dpf (m_dcf xm_m)) (Z.to_nat (mp_log xm_mp)) 6))).
Proof.
  split; [exact xd_created|]. split; [exact xm_created|]. split; [eexists; vm_compute; reflexivity|]. split; [eexists; vm_compute; reflexivity|].
  split; eexists; vm_compute; reflexivity.
Qed.
