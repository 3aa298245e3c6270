(** Failures of OpenSSL calls are passed on. *)
From Coq Require Import List NArith ZArith Bool Lia ZifyBool ZifyNat ZifyN.
From Verif Require Import Base ListUtil ValueTypesModel DpfModel DcfModel FaultModel FaultSpec.
Import ListNotations.
Open Scope N_scope.

Section Proofs.
Variable aes : N -> N -> N.
Variable status : nat -> Z.
Variable random : nat -> N.

Notation rep_at := (reported_at status).
Notation rep := (reported status).

Lemma succeed_trans : forall a b c, succeed status a b -> succeed status b c -> succeed status a c.
Proof. intros a b c H H' i Hi. destruct (Nat.lt_ge_cases i b); [apply H|apply H']; lia. Qed.
Lemma last_fails_trans : forall a b c, (a <= b)%nat -> succeed status a b -> last_fails status b c -> last_fails status a c.
Proof. intros a b c Hab H (i & -> & Hi & HS & HF). exists i. split; [auto|]. split; [lia|]. split; [|exact HF]. exact (succeed_trans _ _ _ H HS). Qed.

Lemma rep_lift : forall A (r : res A), rep (lift r) r.
Proof. intros A r n. split; [apply Nat.le_refl|]. left. split; [|reflexivity]. intros i Hi. cbn in Hi. lia. Qed.

Lemma rep_bind_at : forall A B (m : io A) (f : A -> io B) r g n, rep_at n (m n) r ->
  (forall a n', r = Ok a -> (n <= n')%nat -> succeed status n n' -> m n = (Ok a, n') -> rep_at n' (f a n') (g a)) -> rep_at n (bind_f m f n) (bind r g).
Proof.
  intros A B m f r g n (Hle & H) HF. unfold bind_f. destruct (m n) as [x n1]. cbn [fst snd] in *.
  destruct H as [[HS ->]|[HL ->]].
  - destruct r as [a| | |]; cbn [bind]; try (split; [exact Hle|]; left; split; [exact HS|reflexivity]).
    destruct (HF a n1 eq_refl Hle HS eq_refl) as (Hle2 & H2). split; [lia|]. destruct H2 as [[HS2 E]|[HL2 E]].
    + left. split; [exact (succeed_trans _ _ _ HS HS2)|exact E].
    + right. split; [exact (last_fails_trans _ _ _ Hle HS HL2)|exact E].
  - split; [exact Hle|]. right. split; [exact HL|reflexivity].
Qed.
Lemma rep_bind : forall A B (m : io A) (f : A -> io B) r g, rep m r -> (forall a, r = Ok a -> rep (f a) (g a)) -> rep (bind_f m f) (bind r g).
Proof. intros A B m f r g H HF n. apply rep_bind_at; [apply H|]. intros a n' E _ _ _. apply HF. exact E. Qed.
Lemma rep_bind_ok : forall A B (m : io A) (f : A -> io B) a r, rep m (Ok a) -> rep (f a) r -> rep (bind_f m f) r.
Proof. intros A B m f a r H HF. apply (rep_bind _ _ m f (Ok a) (fun _ => r)); [exact H|]. intros b E. inversion E; subst. exact HF. Qed.

Lemma rep_map : forall A B (f : A -> io B) (g : A -> B) l, (forall a, rep (f a) (Ok (g a))) -> rep (map_f f l) (Ok (map g l)).
Proof.
  intros A B f g l H. induction l as [|a l IH]; cbn [map_f map]; [apply rep_lift|].
  eapply rep_bind_ok; [apply H|]. eapply rep_bind_ok; [exact IH|]. apply rep_lift.
Qed.
Lemma rep_fold : forall A S (f : S -> A -> io S) (g : S -> A -> res S) l s, (forall s a, rep (f s a) (g s a)) -> rep (fold_f f l s) (foldM g l s).
Proof.
  intros A S f g l s H. revert s. induction l as [|a l IH]; intros s; cbn [fold_f foldM]; [apply rep_lift|].
  apply rep_bind; [apply H|]. intros s' _. apply IH.
Qed.
Lemma rep_fold_ok : forall A S (f : S -> A -> io S) (g : S -> A -> S) l s, (forall s a, rep (f s a) (Ok (g s a))) -> rep (fold_f f l s) (Ok (fold_left g l s)).
Proof.
  intros A S f g l s H. revert s. induction l as [|a l IH]; intros s; cbn [fold_f fold_left]; [apply rep_lift|].
  eapply rep_bind_ok; [apply H|]. apply IH.
Qed.

Lemma rep_cipher : forall key bs, rep (evp_cipher aes status key bs) (Ok (map (aes key) bs)).
Proof.
  intros key bs n. unfold evp_cipher. cbn [fst snd]. split; [cbn; lia|]. cbn [fst snd]. destruct (Z.eqb_spec (status n) 1) as [E|E].
  - left. split; [|reflexivity]. intros i Hi. assert (i = n) as -> by lia. exact E.
  - right. split; [|reflexivity]. exists n. split; [reflexivity|]. split; [lia|]. split; [|exact E]. intros i Hi. lia.
Qed.
Lemma rep_status : rep (fun n => (check (status n =? 1)%Z INTERNAL, S n)) (Ok tt).
Proof.
  intros n. split; [cbn; lia|]. cbn [fst snd]. destruct (Z.eqb_spec (status n) 1) as [E|E]; cbn [check].
  - left. split; [|reflexivity]. intros i Hi. assert (i = n) as -> by lia. exact E.
  - right. split; [|reflexivity]. exists n. split; [reflexivity|]. split; [lia|]. split; [|exact E]. intros i Hi. lia.
Qed.

Lemma rep_hash_create : rep (hash_create_f status) (Ok tt).
Proof. unfold hash_create_f. eapply rep_bind_ok; apply rep_status. Qed.
Lemma rep_create : forall F ps, rep (create_incremental_f status F ps) (create_incremental F ps).
Proof.
  intros F ps. unfold create_incremental_f.
  replace (create_incremental F ps) with (d <- create_incremental F ps ;; Ok d) at 2 by (destruct (create_incremental F ps); reflexivity).
  apply rep_bind; [apply rep_lift|]. intros d _. do 3 (eapply rep_bind_ok; [apply rep_hash_create|]). apply rep_lift.
Qed.

Lemma rep_prg : forall key input, rep (prg_evaluate_f aes status key input) (Ok (prg_evaluate aes key input)).
Proof.
  intros key input. unfold prg_evaluate_f, prg_evaluate. eapply rep_bind_ok; [|apply rep_lift].
  apply rep_map. intros b. eapply rep_bind_ok; [apply rep_cipher|]. apply rep_lift.
Qed.

Lemma rep_walk_level : forall ns nl ncw rs cws start paths level st,
  rep (walk_batch_level_f aes status ns nl ncw rs cws start paths level st) (walk_batch_level aes ns nl ncw rs cws start paths level st).
Proof. intros. unfold walk_batch_level_f, walk_batch_level. do 2 (eapply rep_bind_ok; [apply rep_prg|]). apply rep_lift. Qed.
Lemma rep_walk : forall batches ns nl ncw rs cws start,
  rep (walk_batches_f aes status ns nl ncw rs cws start batches) (walk_batches aes ns nl ncw rs cws start batches).
Proof.
  induction batches as [|b rest IH]; intros; cbn [walk_batches_f walk_batches]; [apply rep_lift|].
  apply rep_bind. { apply rep_fold. intros s a. apply rep_walk_level. }
  intros x _. apply rep_bind; [apply IH|]. intros xs _. apply rep_lift.
Qed.
Lemma rep_seeds_internal : forall nl ncw st paths rs cws,
  rep (evaluate_seeds_internal_f aes status nl ncw st paths rs cws) (evaluate_seeds_internal aes nl ncw st paths rs cws).
Proof. intros. unfold evaluate_seeds_internal_f, evaluate_seeds_internal. apply rep_bind; [apply rep_lift|]. intros _ _. apply rep_walk. Qed.
Lemma rep_seeds : forall st paths cws, rep (evaluate_seeds_f aes status st paths cws) (evaluate_seeds aes st paths cws).
Proof.
  intros. unfold evaluate_seeds_f, evaluate_seeds. apply rep_bind; [apply rep_lift|]. intros _ _.
  destruct (_ || _); [apply rep_lift|apply rep_seeds_internal].
Qed.
Lemma rep_expand : forall st cws, rep (expand_seeds_f aes status st cws) (expand_seeds aes st cws).
Proof.
  intros. unfold expand_seeds_f, expand_seeds. destruct (_ <=? _); [apply rep_lift|]. destruct (_ <=? _); [apply rep_lift|].
  apply (rep_fold_ok _ _ _ (fun s cw => expand_level aes cw s)). intros s cw. unfold expand_level_f, expand_level.
  eapply rep_bind_ok; [|apply rep_lift]. apply rep_map. intros b. unfold expand_batch_f, expand_batch.
  do 2 (eapply rep_bind_ok; [apply rep_prg|]). apply rep_lift.
Qed.
Lemma rep_hash : forall b seeds, rep (hash_expanded_seeds_f aes status b seeds) (Ok (hash_expanded_seeds aes b seeds)).
Proof. intros. apply rep_prg. Qed.

Section WithDpf.
Variable d : dpf.

Lemma rep_value_correction : forall h a b alpha beta i,
  rep (compute_value_correction_f aes status d h a b alpha beta i) (compute_value_correction aes d h a b alpha beta i).
Proof. intros. unfold compute_value_correction_f, compute_value_correction. eapply rep_bind_ok; [apply rep_prg|]. apply rep_lift. Qed.
Lemma rep_next : forall t alpha beta g, rep (generate_next_f aes status d t alpha beta g) (generate_next aes d t alpha beta g).
Proof.
  intros. unfold generate_next_f, generate_next. apply rep_bind.
  - destruct (tree_to_hierarchy d (t - 1)) as [h|]; [|apply rep_lift]. apply rep_bind; [apply rep_lift|]. intros b _. apply rep_value_correction.
  - intros values _. do 2 (eapply rep_bind_ok; [apply rep_prg|]). apply rep_lift.
Qed.
Lemma rep_loop : forall n i alpha beta g, rep (generate_loop_f aes status d n i alpha beta g) (generate_loop aes d n i alpha beta g).
Proof.
  induction n as [|n IH]; intros; cbn [generate_loop_f generate_loop]; [apply rep_lift|].
  apply rep_bind; [apply rep_next|]. intros [g1 cw] _. apply rep_bind; [apply IH|]. intros [g2 cws] _. apply rep_lift.
Qed.

Lemma rand_ok : forall n, status n = 1%Z -> rep_at n (rand_uint128_f status random n) (Ok (random n)).
Proof.
  intros n H. unfold rand_uint128_f. rewrite H. cbn. split; [cbn; lia|]. left. split; [|reflexivity].
  intros i Hi. cbn in Hi. assert (i = n) as -> by lia. exact H.
Qed.

Lemma rep_keys : forall alpha beta n, status n = 1%Z -> status (S n) = 1%Z ->
  rep_at n (generate_keys_f aes status random d alpha beta n) (generate_keys aes d alpha beta (random n) (random (S n))).
Proof.
  intros alpha beta n H0 H1. unfold generate_keys_f, generate_keys.
  apply rep_bind_at; [apply rep_lift|]. intros u n' _ _ _ E. inversion E; subst n'. clear E.
  apply rep_bind_at; [apply rep_lift|]. intros u1 n' _ _ _ E. inversion E; subst n'. clear E.
  apply rep_bind_at; [apply rep_lift|]. intros u2 n' _ _ _ E. inversion E; subst n'. clear E.
  match goal with |- rep_at n (bind_f _ ?f n) ?r => apply (rep_bind_at _ _ _ f (Ok (random n)) (fun _ => r)) end; [apply rand_ok; exact H0|].
  intros a n' Ea _ _ E. unfold rand_uint128_f in E. inversion E as [[E1 E2]]. inversion Ea; subst a n'. clear E E1 Ea.
  match goal with |- rep_at _ (bind_f _ ?f _) ?r => apply (rep_bind_at _ _ _ f (Ok (random (S n))) (fun _ => r)) end; [apply rand_ok; exact H1|].
  intros a n' Ea _ _ _. inversion Ea; subst a. clear Ea.
  apply rep_bind; [apply rep_loop|]. intros [g cws] _. apply rep_bind; [apply rep_lift|]. intros b _.
  apply rep_bind; [apply rep_value_correction|]. intros last _. apply rep_lift.
Qed.

Lemma rep_partial : forall prefixes h u c,
  rep (compute_partial_evaluations_f aes status d prefixes h u c) (compute_partial_evaluations aes d prefixes h u c).
Proof.
  intros. unfold compute_partial_evaluations_f, compute_partial_evaluations.
  apply rep_bind; [apply rep_lift|]. intros sl _. apply rep_bind; [apply rep_lift|]. intros st _.
  apply rep_bind; [apply rep_lift|]. intros [s l] _. apply rep_bind; [apply rep_lift|]. intros cws _.
  apply rep_bind; [apply rep_seeds|]. intros s' _. apply rep_lift.
Qed.

(** ** Calls with a context *)

(** [rep_c m r C]: as [reported_ctx], and after a failure the context is in [C]. *)
Definition rep_c {A} (m : cio A) (r : res A * ectx) (C : ectx -> Prop) : Prop :=
  forall n, (n <= snd (m n))%nat /\
    (succeed status n (snd (m n)) /\ fst (m n) = r \/
     last_fails status n (snd (m n)) /\ fst (fst (m n)) = Err INTERNAL /\ C (snd (fst (m n)))).
Lemma rep_c_imp : forall A (m : cio A) r (C C' : ectx -> Prop), rep_c m r C -> (forall c, C c -> C' c) -> rep_c m r C'.
Proof. intros A m r C C' H HC n. destruct (H n) as (H1 & [H2|(H2 & H3 & H4)]); split; auto. Qed.
Lemma rep_c_reported : forall A (m : cio A) r C, rep_c m r C -> reported_ctx status m r.
Proof. intros A m r C H n. destruct (H n) as (H1 & [H2|(H2 & H3 & H4)]); split; auto. Qed.
Definition fail_with {A} (r : res A) (c : ectx) {B} (f : A -> res B * ectx) : res B * ectx :=
  match r with Ok a => f a | Err e => (Err e, c) | Crash => (Crash, c) | UB => (UB, c) end.
Lemma rep_bind_c : forall A B c (m : io A) (f : A -> cio B) r g (C : ectx -> Prop), rep m r ->
  (forall a, r = Ok a -> rep_c (f a) (g a) C) -> C c -> rep_c (bind_c c m f) (fail_with r c g) C.
Proof.
  intros A B c m f r g C H HF HC n. destruct (H n) as (Hle & H1). unfold bind_c. destruct (m n) as [x n1]. cbn [fst snd] in *.
  destruct H1 as [[HS ->]|[HL ->]].
  - destruct r as [a| | |]; cbn [fail_with]; try (split; [exact Hle|]; left; split; [exact HS|reflexivity]).
    destruct (HF a eq_refl n1) as (Hle2 & H2). split; [lia|]. destruct H2 as [[HS2 E]|[HL2 E]].
    + left. split; [exact (succeed_trans _ _ _ HS HS2)|exact E].
    + right. split; [exact (last_fails_trans _ _ _ Hle HS HL2)|exact E].
  - split; [exact Hle|]. right. split; [exact HL|]. split; [reflexivity|exact HC].
Qed.
Lemma rep_bind_cc : forall A B (m : cio A) (f : A -> ectx -> cio B) r c g (C : ectx -> Prop), rep_c m (r, c) C ->
  (forall a, r = Ok a -> rep_c (f a c) (g a) C) -> rep_c (bind_cc m f) (fail_with r c g) C.
Proof.
  intros A B m f r c g C H HF n. destruct (H n) as (Hle & H1). unfold bind_cc. destruct (m n) as [[x cx] n1]. cbn [fst snd] in *.
  destruct H1 as [[HS E]|[HL [-> HC]]].
  - inversion E; subst x cx. destruct r as [a| | |]; cbn [fail_with]; try (split; [exact Hle|]; left; split; [exact HS|reflexivity]).
    destruct (HF a eq_refl n1) as (Hle2 & H2). split; [lia|]. destruct H2 as [[HS2 E2]|[HL2 E2]].
    + left. split; [exact (succeed_trans _ _ _ HS HS2)|exact E2].
    + right. split; [exact (last_fails_trans _ _ _ Hle HS HL2)|exact E2].
  - split; [exact Hle|]. right. split; [exact HL|]. split; [reflexivity|exact HC].
Qed.
Lemma rep_done : forall A c (m : io A) r (C : ectx -> Prop), rep m r -> C c -> rep_c (done c m) (r, c) C.
Proof.
  intros A c m r C H HC n. destruct (H n) as (Hle & H1). unfold done. destruct (m n) as [x n1]. cbn [fst snd] in *.
  split; [exact Hle|]. destruct H1 as [[HS ->]|[HL ->]]; [left; auto|right; auto].
Qed.

(** The context after ComputePartialEvaluations in EvaluateUntil. *)
Definition selected (h : nat) (prefixes : list N) (c : ectx) : res (list (N * bool) * ectx * nat) :=
  if Nat.eqb (length prefixes) 0 then Ok ([(key_seed (ctx_key c), key_bit (ctx_key c))], c, 0%nat)
  else '(st, c1) <- compute_partial_evaluations aes d prefixes (Z.to_nat (c_prev c)) (Nat.ltb h (nlevels d - 1)) c ;;
       start_level <- atz_or_ub (d_h2t d) (c_prev c1) ;;
       Ok (st, c1, start_level).

Lemma update_eq : forall h prefixes c, expand_and_update_context aes d h prefixes c
    = fail_with (selected h prefixes c) c (fun x => let '(st, c1, sl) := x in
        fail_with (stop_level <- at_or_ub (d_h2t d) h ;; cws <- subspan (k_cws (ctx_key c1)) sl (stop_level - sl) ;; expand_seeds aes st cws) c1
          (fun e => (Ok e, with_prev c1 (Z.of_nat h)))).
Proof.
  intros h prefixes c. unfold expand_and_update_context, selected, fail_with.
  match goal with |- match ?m with _ => _ end = _ => destruct m as [[[st c1] sl]| | |] end; reflexivity.
Qed.
Lemma rep_update : forall h prefixes c,
  rep_c (expand_and_update_context_f aes status d h prefixes c) (expand_and_update_context aes d h prefixes c)
    (fun c' => c' = c \/ exists st l, selected h prefixes c = Ok (st, c', l)).
Proof.
  intros h prefixes c. unfold expand_and_update_context_f.
  assert (E : expand_and_update_context aes d h prefixes c
    = fail_with (selected h prefixes c) c (fun x => let '(st, c1, sl) := x in
        fail_with (stop_level <- at_or_ub (d_h2t d) h ;; cws <- subspan (k_cws (ctx_key c1)) sl (stop_level - sl) ;; expand_seeds aes st cws) c1
          (fun e => (Ok e, with_prev c1 (Z.of_nat h))))).
  { apply update_eq. }
  rewrite E. apply rep_bind_c; [| |left; reflexivity].
  - unfold selected. destruct (Nat.eqb (length prefixes) 0); [apply rep_lift|].
    apply rep_bind; [apply rep_partial|]. intros [st c1] _. apply rep_bind; [apply rep_lift|]. intros l _. apply rep_lift.
  - intros [[st c1] sl] HS.
    assert (HC : forall P, c1 = P -> P = c \/ exists st l, selected h prefixes c = Ok (st, P, l)) by (intros P <-; right; eauto).
    intros n. revert n. change (rep_c (bind_c c1
         (stop_level <~ lift (at_or_ub (d_h2t d) h) ;;
          cws <~ lift (subspan (k_cws (ctx_key c1)) sl (stop_level - sl)) ;;
          expand_seeds_f aes status st cws)
         (fun e => done (with_prev c1 (Z.of_nat h)) (lift (Ok e))))
       (fail_with (stop_level <- at_or_ub (d_h2t d) h ;; cws <- subspan (k_cws (ctx_key c1)) sl (stop_level - sl) ;; expand_seeds aes st cws) c1
          (fun e => (Ok e, with_prev c1 (Z.of_nat h)))) (fun c' => c' = c \/ exists st l, selected h prefixes c = Ok (st, c', l))).
    apply rep_bind_c; [| |apply HC; reflexivity].
    + apply rep_bind; [apply rep_lift|]. intros sl' _. apply rep_bind; [apply rep_lift|]. intros cws _. apply rep_expand.
    + intros e _ n. split; [cbn; lia|]. left. split; [|reflexivity]. intros i Hi. cbn in Hi. lia.
Qed.

Lemma rep_until : forall T h prefixes c,
  rep_c (evaluate_until_f aes status d T h prefixes c) (evaluate_until aes d T h prefixes c)
    (fun c' => c' = c \/
       (is_ok (evaluate_until_checks d T h prefixes c) = true /\
        ((exists st l, selected (Z.to_nat h) (fst (build_prefix_map d prefixes (Z.to_nat (c_prev c)) [])) c = Ok (st, c', l)) \/
         (c' = snd (evaluate_until aes d T h prefixes c) /\ c_prev c' = Z.of_nat (Z.to_nat h))))).
Proof.
  intros T h prefixes c. unfold evaluate_until_f, evaluate_until.
  destruct (evaluate_until_checks d T h prefixes c) as [gap|e| |] eqn:EC.
  2-4: intros n; split; [cbn; lia|]; left; split; [intros i Hi; cbn in Hi; lia|reflexivity].
  match goal with |- rep_c (bind_c c (lift (Ok gap)) ?f) ?r _ =>
    change r with (fail_with (Ok gap) c (fun _ : nat => r)); apply (rep_bind_c _ _ c (lift (Ok gap)) f (Ok gap) (fun _ => r)) end;
    [apply rep_lift| |left; reflexivity].
  intros g' Eg. inversion Eg; subst g'. clear Eg.
  destruct (build_prefix_map d prefixes (Z.to_nat (c_prev c)) []) as [tis pm]. cbn [fst is_ok].
  pose proof (rep_update (Z.to_nat h) tis c) as HU.
  destruct (expand_and_update_context aes d (Z.to_nat h) tis c) as [expansion c'] eqn:EU.
  match goal with |- rep_c (bind_cc _ _) ?r _ =>
    assert (Er : r = fail_with expansion c' (fun e => (expansion0 <- Ok e ;;
       let hashed := hash_expanded_seeds aes (blocks d (Z.to_nat h)) (map fst expansion0) in
       corrections <- value_correction d T (ctx_key c') (Z.to_nat h) ;;
       let cepb := (2 ^ block_bits d (Z.to_nat h))%nat in
       blocks_out <- mapM (fun i_st : nat * node =>
           elements <- convert_bytes T (block_bytes (blocks d (Z.to_nat h)) hashed (fst i_st)) ;;
           mapM (correct_element T (k_party (ctx_key c')) (snd (snd i_st))
                   elements corrections) (seq 0 cepb))
         (combine (seq 0 (length expansion0)) expansion0) ;;
       let corrected := concat blocks_out in
       if Nat.eqb (length prefixes) 0 then Ok corrected
       else
         let bptp := to_int32 (Z.of_nat (length expansion0 / length tis)) in
         parts <- mapM (fun m : nat * nat =>
             copy_range corrected
               (Z.of_nat (fst m) * bptp * Z.of_nat cepb
                + Z.of_nat (snd m) * Z.of_nat (2 ^ gap)) (2 ^ gap)) pm ;;
         Ok (concat parts), c'))) by (destruct expansion; reflexivity)
  end.
  rewrite Er. apply rep_bind_cc.
  - eapply rep_c_imp; [exact HU|]. intros c2 [->|HX]; [left; reflexivity|]. right. split; [reflexivity|]. left. exact HX.
  - intros e Ee. apply rep_done.
    + cbn [bind]. eapply rep_bind_ok; [apply rep_hash|]. apply rep_lift.
    + right. split; [reflexivity|]. right. rewrite Ee. split; [reflexivity|].
      rewrite Ee, update_eq in EU. unfold fail_with in EU.
      destruct (selected (Z.to_nat h) tis c) as [[[st c1] sl]| | |]; try discriminate.
      destruct (stop_level <- _ ;; _) in EU; inversion EU; subst. reflexivity.
Qed.

Lemma rep_finish : forall T key h points tis st l,
  rep (evaluate_at_finish_f aes status d T key h points tis st l) (evaluate_at_finish aes d T key h points tis st l).
Proof.
  intros. unfold evaluate_at_finish_f, evaluate_at_finish. apply rep_bind; [apply rep_lift|]. intros sl _. apply rep_bind; [apply rep_lift|]. intros cws _.
  apply rep_bind; [apply rep_seeds|]. intros s _. eapply rep_bind_ok; [apply rep_hash|]. apply rep_lift.
Qed.
Lemma rep_evaluate_at : forall T key h points, rep (evaluate_at_f aes status d T key h points) (evaluate_at aes d T key h points).
Proof.
  intros. unfold evaluate_at_f, evaluate_at. apply rep_bind; [apply rep_lift|]. intros _ _.
  destruct (Nat.eqb _ 0); [apply rep_lift|apply rep_finish].
Qed.
Lemma rep_at_ctx : forall T h points c,
  rep_c (evaluate_at_ctx_f aes status d T h points c) (evaluate_at_ctx aes d T h points c)
    (fun c' => c' = c \/
       (evaluate_at_checks d (ctx_key c) h points = Ok tt /\ Nat.eqb (length points) 0 = false /\
        exists st, compute_partial_evaluations aes d (evaluate_at_indices d T (Z.to_nat h) points) (Z.to_nat h) true c = Ok (st, c'))).
Proof.
  intros T h points c. unfold evaluate_at_ctx_f, evaluate_at_ctx.
  match goal with |- rep_c _ ?r _ => assert (Er : r = fail_with (evaluate_at_checks d (ctx_key c) h points) c (fun _ =>
     if Nat.eqb (length points) 0 then (Ok [], c)
      else fail_with (compute_partial_evaluations aes d (evaluate_at_indices d T (Z.to_nat h) points) (Z.to_nat h) true c) c (fun x : list node * ectx => let '(st, c1) := x in
         fail_with (evaluate_at_finish aes d T (ctx_key c) (Z.to_nat h) points (evaluate_at_indices d T (Z.to_nat h) points) st (h2t d (Z.to_nat h))) c1
           (fun x => (Ok x, with_prev c1 (Z.of_nat (Z.to_nat h))))))) end.
  { destruct (evaluate_at_checks d (ctx_key c) h points); reflexivity. }
  rewrite Er. clear Er. apply rep_bind_c; [apply rep_lift| |left; reflexivity].
  intros [] HC. destruct (Nat.eqb (length points) 0) eqn:EL.
  - apply rep_done; [apply rep_lift|left; reflexivity].
  - apply rep_bind_c; [apply rep_partial| |left; reflexivity]. intros [st c1] HP.
    apply rep_bind_c; [apply rep_finish| |right; eauto]. intros r _ n. split; [cbn; lia|]. left. split; [|reflexivity]. intros i Hi. cbn in Hi. lia.
Qed.

Lemma rep_apply_level : forall T keys points rs h sl stl st,
  rep (apply_level_f aes status d T keys points rs h sl stl st) (apply_level aes d T keys points rs h sl stl st).
Proof.
  intros. unfold apply_level_f, apply_level. apply rep_bind.
  - destruct (Nat.ltb 0 _); [|apply rep_lift]. apply rep_bind; [apply rep_lift|]. intros cws _. apply rep_seeds_internal.
  - intros s _. eapply rep_bind_ok; [apply rep_hash|]. apply rep_lift.
Qed.
Lemma rep_apply_loop : forall S T keys points rs (op : S -> list cval -> S * bool) n h sl st s,
  rep (apply_loop_f aes status d T keys points rs op n h sl st s) (apply_loop aes d T keys points rs op n h sl st s).
Proof.
  intros S T keys points rs op. induction n as [|n IH]; intros; cbn [apply_loop_f apply_loop]; [apply rep_lift|].
  apply rep_bind; [apply rep_apply_level|]. intros [values st'] _. destruct (op s values) as [s' []]; [apply IH|apply rep_lift].
Qed.
Lemma rep_apply : forall S T keys points (op : S -> list cval -> S * bool) rs s,
  rep (evaluate_and_apply_f aes status d T keys points op rs s) (evaluate_and_apply aes d T keys points op rs s).
Proof.
  intros. unfold evaluate_and_apply_f, evaluate_and_apply. apply rep_bind; [apply rep_lift|]. intros _ _. apply rep_bind; [apply rep_lift|]. intros _ _. apply rep_apply_loop.
Qed.
End WithDpf.

Lemma rep_dcf_keys : forall c alpha beta n, status n = 1%Z -> status (S n) = 1%Z ->
  rep_at n (dcf_generate_keys_f aes status random c alpha beta n) (dcf_generate_keys aes c alpha beta (random n) (random (S n))).
Proof.
  intros c alpha beta n H0 H1. unfold dcf_generate_keys_f, dcf_generate_keys. apply rep_bind_at; [apply rep_lift|].
  intros vs n' _ _ _ E. inversion E; subst n'. apply rep_keys; assumption.
Qed.
Lemma rep_dcf_eval : forall c T keys points output,
  rep (dcf_batch_evaluate_f aes status c T keys points output) (dcf_batch_evaluate aes c T keys points output).
Proof.
  intros. unfold dcf_batch_evaluate_f, dcf_batch_evaluate. apply rep_bind; [apply rep_lift|]. intros _ _. apply rep_bind; [apply rep_lift|]. intros _ _.
  destruct (_ <? 0)%Z; [apply rep_lift|]. apply rep_bind; [apply rep_apply|]. intros s _. apply rep_lift.
Qed.
Lemma rep_mic_eval : forall m keys points, rep (mic_batch_eval_f aes status m keys points) (mic_batch_eval aes m keys points).
Proof.
  intros. unfold mic_batch_eval_f, mic_batch_eval. apply rep_bind; [apply rep_lift|]. intros _ _. apply rep_bind; [apply rep_lift|]. intros _ _.
  destruct (_ <? _); [apply rep_lift|]. apply rep_bind; [apply rep_dcf_eval|]. intros sp _. apply rep_bind; [apply rep_dcf_eval|]. intros sq _. apply rep_lift.
Qed.
End Proofs.
