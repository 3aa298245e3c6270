(** The numbers of calls to OpenSSL. *)
From Coq Require Import List NArith ZArith Bool Lia ZifyBool ZifyNat ZifyN.
From Verif Require Import Base ListUtil ValueTypesModel DpfModel DpfTree DpfWf DpfGen DpfEval DpfCtx DpfHist DpfReach DcfModel FaultModel CostSpec.
Import ListNotations.
Open Scope nat_scope.

Lemma total_app : forall l l', total (l ++ l') = total l + total l'.
Proof. induction l as [|x l IH]; intros l'; [reflexivity|]. cbn [app total fold_right]. fold (total (l ++ l')). fold (total l). rewrite IH. lia. Qed.
Lemma total_const : forall A (l : list A) k, total (map (fun _ => k) l) = length l * k.
Proof. intros A l k. induction l as [|x l IH]; [reflexivity|]. cbn [map total fold_right length]. fold (total (map (fun _ => k) l)). rewrite IH. lia. Qed.

Lemma batches_0 : batches 0 = 0.
Proof. reflexivity. Qed.
Lemma batches_small : forall n, 0 < n <= 64 -> batches n = 1.
Proof.
  intros n H. unfold batches. symmetry. apply (Nat.div_unique (n + 63) 64 1 (n - 1)); lia.
Qed.
Lemma batches_more : forall n, batches (64 + n) = S (batches n).
Proof. intros n. unfold batches. replace (64 + n + 63) with (n + 63 + 1 * 64) by lia. rewrite Nat.div_add by lia. lia. Qed.

(** The batches of a list. *)
Lemma chunks_fuel_shape : forall A fuel (l : list A), length l <= fuel ->
  length (chunks_fuel fuel 64 l) = batches (length l) /\ Forall (fun b => 0 < length b <= 64) (chunks_fuel fuel 64 l).
Proof.
  induction fuel as [|fuel IH]; intros l H.
  - destruct l; [|cbn in H; lia]. split; [reflexivity|constructor].
  - destruct l as [|x l]; [split; [reflexivity|constructor]|].
    change (chunks_fuel (S fuel) 64 (x :: l)) with (firstn 64 (x :: l) :: chunks_fuel fuel 64 (skipn 64 (x :: l))).
    assert (Hs : length (skipn 64 (x :: l)) <= fuel) by (rewrite skipn_length; cbn [length] in *; lia).
    destruct (IH _ Hs) as [IH1 IH2]. cbn [length]. rewrite IH1, skipn_length. split.
    + change (length (x :: l)) with (S (length l)). destruct (Nat.le_gt_cases (S (length l)) 64).
      * replace (S (length l) - 64) with 0 by lia. rewrite (batches_small (S (length l))) by lia. reflexivity.
      * replace (S (length l)) with (64 + (S (length l) - 64)) at 2 by lia. rewrite batches_more. reflexivity.
    + constructor; [|exact IH2]. rewrite firstn_length. cbn [length]. lia.
Qed.
Lemma chunks_shape : forall A (l : list A),
  length (chunks batch_size l) = batches (length l) /\ Forall (fun b => 0 < length b <= 64) (chunks batch_size l).
Proof. intros A l. apply (chunks_fuel_shape A (length l) l). lia. Qed.

(** [m] makes [k] calls whenever it succeeds, and then its result satisfies [P]. *)
Definition does {A} (m : io A) (P : A -> Prop) (k : nat) : Prop := forall n a n', m n = (Ok a, n') -> P a /\ n' = n + k.

Lemma does_lift : forall A (r : res A) (P : A -> Prop), (forall a, r = Ok a -> P a) -> does (lift r) P 0.
Proof. intros A r P H n a n' E. unfold lift in E. inversion E; subst. split; [apply H; reflexivity|lia]. Qed.
Lemma does_bind : forall A B (m : io A) (f : A -> io B) P Q k k', does m P k -> (forall a, P a -> does (f a) Q k') ->
  does (bind_f m f) Q (k + k').
Proof.
  intros A B m f P Q k k' Hm Hf n b n' E. unfold bind_f in E. destruct (m n) as [[a| | |] n1] eqn:Em; try discriminate.
  destruct (Hm _ _ _ Em) as [HP ->]. destruct (Hf a HP _ _ _ E) as [HQ ->]. split; [exact HQ|lia].
Qed.
Lemma does_weaken : forall A (m : io A) (P Q : A -> Prop) k k', does m P k -> (forall a, P a -> Q a) -> k = k' -> does m Q k'.
Proof. intros A m P Q k k' H HPQ <- n a n' E. destruct (H _ _ _ E) as [HP ->]. split; auto. Qed.
Lemma does_bind0 : forall A B (m : io A) (f : A -> io B) P Q k, does m P 0 -> (forall a, P a -> does (f a) Q k) -> does (bind_f m f) Q k.
Proof. intros A B m f P Q k Hm Hf. exact (does_bind _ _ m f P Q 0 k Hm Hf). Qed.
Lemma does_map : forall A B (f : A -> io B) (P : A -> B -> Prop) (g : A -> nat) l, (forall a, In a l -> does (f a) (P a) (g a)) ->
  does (map_f f l) (Forall2 P l) (total (map g l)).
Proof.
  intros A B f P g l. induction l as [|a l IH]; intros H; cbn [map_f map].
  - apply does_lift. intros b E. inversion E; subst. constructor.
  - apply (does_bind _ _ _ _ (P a)); [apply H; left; reflexivity|]. intros b Hb.
    eapply does_weaken; [eapply (does_bind _ _ _ _ (Forall2 P l) (Forall2 P (a :: l)) _ 0); [apply IH; intros; apply H; right; assumption|]|auto|].
    + intros bs Hbs. apply does_lift. intros x E. inversion E; subst. constructor; assumption.
    + change (total (map g l) + 0 = total (map g l)). lia.
Qed.
Lemma does_fold : forall A S (f : S -> A -> io S) (I : nat -> S -> Prop) (g : nat -> nat) l k s,
  (forall i s a, I i s -> does (f s a) (I (Datatypes.S i)) (g i)) -> I k s ->
  does (fold_f f l s) (I (k + length l)) (total (map g (seq k (length l)))).
Proof.
  intros A S f I g l. induction l as [|a l IH]; intros k s H Hs; cbn [fold_f length seq map].
  - apply does_lift. intros x E. inversion E; subst. rewrite Nat.add_0_r. exact Hs.
  - apply (does_bind _ _ _ _ (I (Datatypes.S k))); [apply H; exact Hs|]. intros s' Hs'.
    replace (k + Datatypes.S (length l)) with (Datatypes.S k + length l) by lia. apply IH; assumption.
Qed.

Lemma length_zip2 : forall A B C (f : A -> B -> C) l l', length l = length l' -> length (zip2 f l l') = length l.
Proof. intros A B C f l. induction l as [|x l IH]; intros [|y l'] H; cbn in *; try lia. rewrite IH; lia. Qed.
Lemma length_zip3 : forall A B C D (f : A -> B -> C -> D) l l' l'', length l' = length l -> length l'' = length l -> length (zip3 f l l' l'') = length l.
Proof. intros A B C D f l. induction l as [|x l IH]; intros [|y l'] [|z l''] H H'; cbn in *; try lia. rewrite IH; lia. Qed.
Lemma length_concat_eq : forall A B (P : list A -> list B -> Prop) c l l', (forall x y, P x y -> length y = c * length x) -> Forall2 P l l' ->
  length (concat l') = c * length (concat l).
Proof.
  intros A B P c l l' HP H. induction H as [|x y l l' Hxy _ IH]; cbn [concat]; [cbn; lia|]. rewrite !app_length, IH, (HP _ _ Hxy). lia.
Qed.
Lemma walk_loop_length : forall f paths st left right i x, length st = length paths -> length left = length paths -> length right = length paths ->
  walk_batch_loop f i paths st left right = Ok x -> length x = length paths.
Proof.
  intros f paths. induction paths as [|p paths IH]; intros [|[s b] st] [|l left] [|r right] i x H1 H2 H3 H; cbn in *; try lia.
  - injection H as <-. reflexivity.
  - destruct (f i p b l r) as [y| | |]; try discriminate. cbn [bind] in H.
    destruct (walk_batch_loop f (S i) paths st left right) as [ys| | |] eqn:E; try discriminate. cbn [bind] in H. injection H as <-.
    cbn [length]. rewrite (IH st left right (S i) ys); [reflexivity|lia..|exact E].
Qed.

Section Cost.
Variable aes : N -> N -> N.
Variable status : nat -> Z.

Lemma cost_cipher : forall key bs, does (evp_cipher aes status key bs) (fun out => length out = length bs) 1.
Proof.
  intros key bs n a n' E. unfold evp_cipher in E. destruct (status n =? 1)%Z; inversion E; subst. rewrite map_length. split; [reflexivity|lia].
Qed.


Lemma cost_prg : forall key input, does (prg_evaluate_f aes status key input) (fun out => length out = length input) (batches (length input)).
Proof.
  intros key input. unfold prg_evaluate_f. destruct (chunks_shape N input) as [HL _].
  eapply does_weaken; [eapply does_bind|intros a H; exact H|].
  - apply (does_map _ _ _ (fun b out => length out = 1 * length b) (fun _ => 1)). intros b _.
    eapply does_weaken; [eapply does_bind; [apply cost_cipher|]|intros a H; exact H|].
    + intros out Hout. apply does_lift. intros x E. inversion E; subst. rewrite length_zip2 by exact Hout. rewrite Hout, map_length. lia.
    + reflexivity.
  - intros outs H. apply does_lift. intros x E. inversion E; subst.
    rewrite (length_concat_eq _ _ _ 1 _ _ (fun x y H => H) H), concat_chunks by (unfold batch_size; lia). lia.
  - rewrite total_const, HL. lia.
Qed.

Lemma cost_walk_level : forall ns nl ncw rs cws start paths level st, length st = length paths -> 0 < length paths <= 64 ->
  does (walk_batch_level_f aes status ns nl ncw rs cws start paths level st) (fun x => length x = length paths) 2.
Proof.
  intros ns nl ncw rs cws start paths level st HL HP. unfold walk_batch_level_f.
  assert (E1 : batches (length (map fst st)) = 1) by (rewrite map_length; apply batches_small; unfold node in *; lia).
  eapply does_weaken; [eapply does_bind; [apply cost_prg|]|intros a H; exact H|].
  - intros left Hl. eapply does_bind; [apply cost_prg|]. intros right Hr. apply does_lift. intros x E.
    cbv beta in Hl, Hr. rewrite map_length in Hl, Hr. unfold node in *. eapply walk_loop_length; [| | |exact E]; [exact HL|congruence..].
  - cbv beta. rewrite E1. reflexivity.
Qed.
Lemma cost_walk_batches : forall ns nl ncw rs cws bs start, Forall (fun b => 0 < length b <= 64) bs ->
  does (walk_batches_f aes status ns nl ncw rs cws start bs) (fun x => length x = length (concat bs)) (2 * nl * length bs).
Proof.
  intros ns nl ncw rs cws bs. induction bs as [|b bs IH]; intros start H; cbn [walk_batches_f].
  - eapply does_weaken; [apply (does_lift _ _ (fun x => length x = length (@concat (N * node) [])))|intros a Ha; exact Ha|cbn; lia].
    intros x E. inversion E; subst. reflexivity.
  - inversion H; subst. eapply does_weaken; [eapply does_bind|intros a Ha; exact Ha|].
    + apply (does_fold _ _ _ (fun _ st => length st = length (map fst b)) (fun _ => 2) (seq 0 nl) 0 (map snd b)); [|rewrite !map_length; reflexivity].
      intros i st level Hst. apply cost_walk_level; [exact Hst|rewrite map_length; assumption].
    + cbv beta. intros x Hx. eapply does_bind; [apply IH; assumption|]. intros xs Hxs. apply does_lift. intros y E. inversion E; subst.
      cbn [concat]. rewrite !app_length, Hx, Hxs, map_length. reflexivity.
    + rewrite total_const, !seq_length. cbn [length]. lia.
Qed.
Lemma cost_seeds_internal : forall nl ncw st paths rs cws, length st = length paths ->
  does (evaluate_seeds_internal_f aes status nl ncw st paths rs cws) (fun x => length x = length st) (walk_calls nl (length st)).
Proof.
  intros nl ncw st paths rs cws H. unfold evaluate_seeds_internal_f. destruct (chunks_shape _ (combine paths st)) as [HL HF].
  assert (HC : length (combine paths st) = length st) by (rewrite combine_length; lia).
  eapply does_weaken; [eapply does_bind; [apply does_lift; intros a _; exact I|]|intros a Ha; exact Ha|].
  - intros u _. eapply does_weaken; [apply cost_walk_batches; exact HF| |reflexivity]. cbv beta. intros x Hx.
    rewrite concat_chunks in Hx by (unfold batch_size; lia). rewrite HC in Hx. exact Hx.
  - unfold walk_calls. rewrite HL, HC. reflexivity.
Qed.
Lemma cost_seeds : forall st paths cws,
  does (evaluate_seeds_f aes status st paths cws) (fun x => length x = length st) (walk_calls (length cws) (length st)).
Proof.
  intros st paths cws. unfold evaluate_seeds_f. eapply (does_bind _ _ _ _ (fun _ => length st = length paths) _ 0).
  - apply does_lift. intros a E. destruct (Nat.eqb_spec (length st) (length paths)) as [H|H]; [exact H|discriminate].
  - intros u H. destruct (Nat.eqb_spec (length st) 0) as [E0|E0]; cbn [orb].
    { rewrite E0. unfold walk_calls. rewrite batches_0, Nat.mul_0_r. apply does_lift. intros x E. inversion E; subst. exact E0. }
    destruct (Nat.eqb_spec (length cws) 0) as [E1|E1].
    { rewrite E1. unfold walk_calls. cbn [Nat.mul]. apply does_lift. intros x E. inversion E; subst. reflexivity. }
    apply cost_seeds_internal. exact H.
Qed.

Lemma cost_expand_batch : forall cw b, 0 < length b <= 64 -> does (expand_batch_f aes status cw b) (fun x => length x = 2 * length b) 2.
Proof.
  intros cw b H. unfold expand_batch_f. assert (E1 : batches (length (map fst b)) = 1) by (rewrite map_length; apply batches_small; unfold node in *; lia).
  eapply does_weaken; [eapply does_bind; [apply cost_prg|]|intros a Ha; exact Ha|].
  - intros left Hl. eapply does_bind; [apply cost_prg|]. intros right Hr. apply does_lift. intros x E. injection E as <-.
    cbv beta in Hl, Hr. rewrite map_length in Hl, Hr. unfold node in *.
    clear - Hl Hr. revert left right Hl Hr. induction b as [|[s t] b IH]; intros [|l left] [|r right] Hl Hr; cbn [length] in *; try lia; [reflexivity|].
    cbn [zip3 concat app length]. rewrite IH by lia. lia.
  - cbv beta. rewrite E1. reflexivity.
Qed.
Lemma cost_expand_level : forall st cw, does (expand_level_f aes status st cw) (fun x => length x = 2 * length st) (2 * batches (length st)).
Proof.
  intros st cw. unfold expand_level_f. destruct (chunks_shape _ st) as [HL HF]. rewrite Forall_forall in HF.
  eapply does_weaken; [eapply does_bind|intros a Ha; exact Ha|].
  - apply (does_map _ _ _ (fun (b x : list node) => length x = 2 * length b) (fun _ => 2)). intros b Hb. apply cost_expand_batch. apply HF. exact Hb.
  - intros parts H. apply does_lift. intros x E. inversion E; subst.
    rewrite (length_concat_eq _ _ _ 2 _ _ (fun x y H => H) H), concat_chunks by (unfold batch_size; lia). reflexivity.
  - rewrite total_const, HL. lia.
Qed.
Lemma cost_expand : forall st cws, does (expand_seeds_f aes status st cws) (fun x => length x = length st * 2 ^ length cws) (expand_calls (length cws) (length st)).
Proof.
  intros st cws. unfold expand_seeds_f. destruct (_ <=? _)%N; [intros n a n' E; discriminate E|]. destruct (_ <=? _)%N; [intros n a n' E; discriminate E|].
  apply (does_fold _ _ _ (fun i x => length x = length st * 2 ^ i) (fun i => 2 * batches (length st * 2 ^ i)) cws 0 st).
  - intros i s a Hs. eapply does_weaken; [apply cost_expand_level| |rewrite Hs; reflexivity]. cbv beta. intros x Hx. rewrite Hx, Hs.
    rewrite Nat.pow_succ_r'. lia.
  - cbn. lia.
Qed.
Lemma cost_hash : forall b seeds, does (hash_expanded_seeds_f aes status b seeds) (fun _ => True) (batches (length seeds * b)).
Proof.
  intros b seeds. unfold hash_expanded_seeds_f. eapply does_weaken; [apply cost_prg|auto|]. f_equal.
  induction seeds as [|s seeds IH]; [reflexivity|]. cbn [map concat length]. rewrite app_length, IH, map_length, seq_length. lia.
Qed.

Section WithDpf.
Variable d : dpf.

Lemma cost_correction : forall h a b alpha beta i, does (compute_value_correction_f aes status d h a b alpha beta i) (fun _ => True) (batches (2 * blocks d h)).
Proof.
  intros. unfold compute_value_correction_f. eapply does_weaken; [eapply (does_bind _ _ _ _ _ (fun _ => True)); [apply cost_prg|]|auto|].
  - intros hashed _. apply does_lift. auto.
  - rewrite app_length, !map_length, !seq_length. rewrite Nat.add_0_r. f_equal. lia.
Qed.
Definition level_calls (t : nat) : nat := match tree_to_hierarchy d t with Some h => batches (2 * blocks d h) | None => 0 end.
Lemma cost_next : forall t alpha beta g, does (generate_next_f aes status d t alpha beta g) (fun _ => True) (level_calls (t - 1) + 2).
Proof.
  intros. unfold generate_next_f. eapply (does_bind _ _ _ _ (fun _ => True)).
  - unfold level_calls. destruct (tree_to_hierarchy d (t - 1)) as [h|]; [|apply does_lift; auto].
    eapply (does_bind _ _ _ _ (fun _ => True) _ 0); [apply does_lift; auto|]. intros b _. apply cost_correction.
  - intros values _. eapply (does_bind _ _ _ _ (fun _ => True) _ 1 1).
    + eapply does_weaken; [apply cost_prg|auto|reflexivity].
    + intros l _. eapply (does_bind _ _ _ _ (fun _ => True) _ 1 0); [eapply does_weaken; [apply cost_prg|auto|reflexivity]|].
      intros r _. apply does_lift. auto.
Qed.
Lemma cost_loop : forall n i alpha beta g, does (generate_loop_f aes status d n i alpha beta g) (fun _ => True)
  (2 * n + total (map level_calls (map (fun t => t - 1) (seq i n)))).
Proof.
  induction n as [|n IH]; intros; cbn [generate_loop_f seq map]; [apply does_lift; auto|].
  eapply does_weaken; [eapply (does_bind _ _ _ _ _ (fun _ => True)); [apply cost_next|]|auto|].
  - intros [g1 cw] _. eapply (does_bind _ _ _ _ (fun _ => True) (fun _ => True) _ 0); [apply IH|]. intros [g2 cws] _. apply does_lift. auto.
  - cbn [total fold_right]. fold (total (map level_calls (map (fun t => t - 1) (seq (S i) n)))). lia.
Qed.

Lemma level_calls_none : forall t a b, wf d -> (a = None \/ exists h, a = Some h /\ h < nlevels d /\ h2t d h < t) ->
  b < nlevels d -> t < h2t d b -> b = match a with Some h => S h | None => 0 end -> level_calls t = 0.
Proof.
  intros t a b W Ha Hb Ht Eb. unfold level_calls. destruct (tree_to_hierarchy d t) as [h|] eqn:E; [|reflexivity]. exfalso.
  apply (tree_to_hierarchy_some d W) in E. destruct E as [Hh <-].
  assert (h < b).
  { destruct (Nat.lt_ge_cases h b) as [HX|HX]; [exact HX|]. exfalso. destruct (Nat.eq_dec h b) as [->|]; [lia|].
    pose proof (wf_h2t_mono _ W b h ltac:(lia) Hh). lia. }
  destruct Ha as [->|(h0 & -> & Hh0 & HX)]; [lia|].
  destruct (Nat.eq_dec h h0) as [->|]; [lia|]. pose proof (wf_h2t_mono _ W h h0 ltac:(lia) Hh0). lia.
Qed.
Lemma total_zero : forall f a n, (forall t, a <= t < a + n -> f t = 0) -> total (map f (seq a n)) = 0.
Proof.
  intros f a n. revert a. induction n as [|n IH]; intros a H; [reflexivity|]. cbn [seq map total fold_right]. fold (total (map f (seq (S a) n))).
  rewrite H by lia. rewrite IH; [reflexivity|]. intros t Ht. apply H. lia.
Qed.
Lemma total_levels : forall h, wf d -> h < nlevels d ->
  total (map level_calls (seq 0 (h2t d h))) = total (map (fun j => batches (2 * blocks d j)) (seq 0 h)).
Proof.
  intros h W. induction h as [|h IH]; intros H.
  - cbn [seq map]. apply total_zero. intros t Ht. apply (level_calls_none t None 0); auto; lia.
  - pose proof (wf_h2t_mono _ W h (S h) ltac:(lia) H) as HM.
    replace (h2t d (S h)) with (h2t d h + S (h2t d (S h) - h2t d h - 1)) by lia.
    rewrite seq_app, map_app, total_app, IH by lia. rewrite (seq_S h 0), map_app, total_app. f_equal.
    cbn [plus seq map total fold_right]. fold (total (map level_calls (seq (S (h2t d h)) (h2t d (S h) - h2t d h - 1)))).
    rewrite (total_zero level_calls).
    + unfold level_calls. rewrite (tree_to_hierarchy_h2t d W h) by lia. reflexivity.
    + intros t Ht. apply (level_calls_none t (Some h) (S h)); auto; [|lia]. right. exists h. split; [reflexivity|]. lia.
Qed.

Lemma cost_keys : forall random alpha beta, wf d ->
  does (generate_keys_f aes status random d alpha beta) (fun _ => True) (key_calls d (nlevels d)).
Proof.
  intros random alpha beta W. unfold generate_keys_f.
  assert (HR : does (rand_uint128_f status random) (fun _ => True) 1).
  { intros n a n' E. unfold rand_uint128_f in E. inversion E. split; [exact I|lia]. }
  eapply does_weaken; [|intros a Ha; exact Ha|].
  - do 3 (eapply (does_bind0 _ _ _ _ (fun _ => True) _); [apply does_lift; auto|]; intros ? _).
    eapply (does_bind _ _ _ _ (fun _ => True) (fun _ => True)); [exact HR|]. intros s0 _.
    eapply (does_bind _ _ _ _ (fun _ => True)); [exact HR|]. intros s1 _.
    eapply (does_bind _ _ _ _ (fun _ => True)); [apply cost_loop|]. intros [g cws] _.
    eapply (does_bind0 _ _ _ _ (fun _ => True) _); [apply does_lift; auto|]. intros b _.
    eapply (does_bind _ _ _ _ (fun _ => True) _ _ 0); [apply cost_correction|]. intros l _. apply does_lift. auto.
  - pose proof (wf_pos _ W) as HP. rewrite (wf_levels _ W). replace (S (h2t d (nlevels d - 1)) - 1) with (h2t d (nlevels d - 1)) by lia.
    replace (map (fun t => t - 1) (seq 1 (h2t d (nlevels d - 1)))) with (seq 0 (h2t d (nlevels d - 1))).
    2:{ rewrite <- seq_shift, map_map. rewrite <- (map_id (seq 0 _)) at 1. apply map_ext. intros t. lia. }
    rewrite total_levels by (auto; lia).
    change (key_calls d (nlevels d)) with (2 + 2 * h2t d (nlevels d - 1) + total (map (fun j => batches (2 * blocks d j)) (seq 0 (nlevels d)))).
    replace (seq 0 (nlevels d)) with (seq 0 (nlevels d - 1) ++ [nlevels d - 1]).
    2:{ change (seq 0 (nlevels d - 1) ++ [0 + (nlevels d - 1)] = seq 0 (nlevels d)). rewrite <- (seq_S (nlevels d - 1) 0). f_equal. lia. }
    rewrite map_app, total_app.
    change (total (map (fun j => batches (2 * blocks d j)) [nlevels d - 1])) with (batches (2 * blocks d (nlevels d - 1)) + 0). lia.
Qed.

Lemma subspan_length : forall A (l : list A) pos len x, subspan l pos len = Ok x -> pos + len <= length l -> length x = len.
Proof. intros A l pos len x H HL. unfold subspan in H. destruct (Nat.leb pos (length l)); [|discriminate]. injection H as <-. rewrite firstn_length, skipn_length. lia. Qed.
Lemma h2t_ok : forall h x, at_or_ub (d_h2t d) h = Ok x -> x = h2t d h.
Proof. intros h x H. unfold at_or_ub in H. unfold h2t. destruct (nth_error (d_h2t d) h) as [y|] eqn:E; [|discriminate]. injection H as <-. symmetry. apply nth_error_nth. exact E. Qed.

Lemma cost_finish : forall T key h points tis st start, wf d -> key_ok d key -> h < nlevels d -> start <= h2t d h ->
  does (evaluate_at_finish_f aes status d T key h points tis st start) (fun _ => True) (at_calls d start h (length st)).
Proof.
  intros T key h points tis st start W HK Hh Hs. unfold evaluate_at_finish_f.
  eapply does_weaken; [eapply (does_bind0 _ _ _ _ (fun x => x = h2t d h) (fun _ => True)); [apply does_lift; intros a Ha; exact (h2t_ok h a Ha)|]|auto|].
  - intros stop ->. eapply (does_bind0 _ _ _ _ (fun x => length x = h2t d h - start) _).
    + apply does_lift. intros x Hx. apply (subspan_length _ _ _ _ _ Hx). pose proof (key_ok_h2t d W key h HK Hh). lia.
    + intros cws Hc. eapply (does_bind _ _ _ _ (fun x => length x = length st) _ (walk_calls (h2t d h - start) (length st)));
        [rewrite <- Hc; apply cost_seeds|].
      intros st' Hst. eapply (does_bind _ _ _ _ (fun _ => True) _ (batches (length st * blocks d h)) 0).
      * eapply does_weaken; [apply cost_hash|auto|]. rewrite map_length. unfold node in *. rewrite Hst. reflexivity.
      * intros hashed _. apply does_lift. auto.
  - unfold at_calls, tree_level_of, blocks_of. fold (h2t d h). fold (blocks d h). lia.
Qed.

Lemma cost_at : forall T key h points, wf d ->
  does (evaluate_at_f aes status d T key h points) (fun _ => True) (at_calls d 0 (Z.to_nat h) (length points)).
Proof.
  intros T key h points W. unfold evaluate_at_f.
  eapply (does_bind0 _ _ _ _ (fun _ => evaluate_at_checks d key h points = Ok tt) _); [apply does_lift; intros [] Ha; exact Ha|].
  intros _ HC. apply (at_checks_inv d W) in HC. destruct HC as (Hh & HK & _).
  destruct (Nat.eqb_spec (length points) 0) as [E|E].
  - rewrite E. eapply does_weaken; [apply (does_lift _ _ (fun _ => True)); auto|auto|]. unfold at_calls, walk_calls. rewrite Nat.mul_0_l, batches_0. lia.
  - eapply does_weaken; [apply (cost_finish T key (Z.to_nat h) points); auto; lia|auto|]. rewrite map_length. reflexivity.
Qed.

(** The tree level at which the evaluation of level [h] starts with context [c]. *)
Definition start_of (c : ectx) (h : nat) : nat :=
  if negb (Nat.eqb (length (c_partials c)) 0) && Nat.leb (h2t d (Z.to_nat (c_plevel c))) (h2t d h) then h2t d (Z.to_nat (c_plevel c)) else 0.
Lemma h2t_okz : forall h x, atz_or_ub (d_h2t d) h = Ok x -> x = h2t d (Z.to_nat h).
Proof. intros h x H. unfold atz_or_ub in H. destruct (h <? 0)%Z; [discriminate|]. apply h2t_ok. exact H. Qed.
Lemma mapM_length : forall A B (f : A -> res B) l x, mapM f l = Ok x -> length x = length l.
Proof.
  intros A B f l. induction l as [|a l IH]; intros x H; cbn [mapM] in H; [injection H as <-; reflexivity|].
  destruct (f a); try discriminate. cbn [bind] in H. destruct (mapM f l) as [y| | |]; try discriminate. cbn [bind] in H. injection H as <-.
  cbn [length]. rewrite (IH y); reflexivity.
Qed.

Lemma cost_partials : forall prefixes h u c, wf d -> key_ok d (ctx_key c) -> h < nlevels d ->
  does (compute_partial_evaluations_f aes status d prefixes h u c)
    (fun x => length (fst x) = length prefixes /\ c_prev (snd x) = c_prev c /\ c_key (snd x) = c_key c)
    (walk_calls (h2t d h - start_of c h) (length prefixes)).
Proof.
  intros prefixes h u c W HK Hh. unfold compute_partial_evaluations_f.
  eapply (does_bind0 _ _ _ _ (fun x => x = h2t d (Z.to_nat (c_plevel c))) _); [apply does_lift; intros a Ha; exact (h2t_okz _ a Ha)|].
  intros pl ->.
  eapply (does_bind0 _ _ _ _ (fun x => x = h2t d h) _); [apply does_lift; intros a Ha; exact (h2t_ok h a Ha)|].
  intros stop ->.
  eapply (does_bind0 _ _ _ _ (fun x => length (fst x) = length prefixes /\ snd x = start_of c h) _).
  { apply does_lift. intros [st s] Hx. unfold start_of.
    destruct (negb (Nat.eqb (length (c_partials c)) 0) && Nat.leb (h2t d (Z.to_nat (c_plevel c))) (h2t d h)).
    - destruct (check _ _) as [[]| | |]; try discriminate. cbn [bind] in Hx.
      destruct (mapM _ prefixes) as [y| | |] eqn:EM; try discriminate. cbn [bind] in Hx. injection Hx as <- <-.
      split; [exact (mapM_length _ _ _ _ _ EM)|reflexivity].
    - injection Hx as <- <-. split; [apply map_length|reflexivity]. }
  intros [st s] [Hst Hs]. cbn [fst snd] in Hst, Hs. subst s.
  assert (HS : start_of c h <= h2t d h).
  { unfold start_of. destruct (negb _); cbn [andb]; [|lia]. destruct (Nat.leb_spec (h2t d (Z.to_nat (c_plevel c))) (h2t d h)); lia. }
  eapply (does_bind0 _ _ _ _ (fun x => length x = h2t d h - start_of c h) _).
  { apply does_lift. intros x Hx. apply (subspan_length _ _ _ _ _ Hx). pose proof (key_ok_h2t d W _ h HK Hh). lia. }
  intros cws Hc. rewrite <- Hc, <- Hst.
  eapply does_weaken; [eapply (does_bind _ _ _ _ (fun x => length x = length st) _ _ 0); [apply cost_seeds|]|intros a Ha; exact Ha|lia].
  intros st' Hst'. apply does_lift. intros x Hx. injection Hx as <-. cbn [fst snd c_prev c_key]. split; [exact Hst'|]. split; reflexivity.
Qed.

(** The same for calls that return a context. *)
Definition doesc {A} (m : cio A) (P : A -> ectx -> Prop) (k : nat) : Prop := forall n a c n', m n = (Ok a, c, n') -> P a c /\ n' = n + k.
Lemma doesc_bind : forall A B c (m : io A) (f : A -> cio B) P Q k k', does m P k -> (forall a, P a -> doesc (f a) Q k') -> doesc (bind_c c m f) Q (k + k').
Proof.
  clear. intros A B c m f P Q k k' Hm Hf n b c' n' E. unfold bind_c in E. destruct (m n) as [[a| | |] n1] eqn:Em; try discriminate.
  destruct (Hm _ _ _ Em) as [HP ->]. destruct (Hf a HP _ _ _ _ E) as [HQ ->]. split; [exact HQ|lia].
Qed.
Lemma doesc_bind0 : forall A B c (m : io A) (f : A -> cio B) P Q k, does m P 0 -> (forall a, P a -> doesc (f a) Q k) -> doesc (bind_c c m f) Q k.
Proof. clear. intros A B c m f P Q k Hm Hf. exact (doesc_bind _ _ c m f P Q 0 k Hm Hf). Qed.
Lemma doesc_bindc : forall A B (m : cio A) (f : A -> ectx -> cio B) P Q k k', doesc m P k -> (forall a c, P a c -> doesc (f a c) Q k') -> doesc (bind_cc m f) Q (k + k').
Proof.
  clear. intros A B m f P Q k k' Hm Hf n b c' n' E. unfold bind_cc in E. destruct (m n) as [[[a| | |] c1] n1] eqn:Em; try discriminate.
  destruct (Hm _ _ _ _ Em) as [HP ->]. destruct (Hf a c1 HP _ _ _ _ E) as [HQ ->]. split; [exact HQ|lia].
Qed.
Lemma doesc_done : forall A c (m : io A) P k, does m P k -> doesc (done c m) (fun a c' => P a /\ c' = c) k.
Proof.
  clear. intros A c m P k H n a c' n' E. unfold done in E. destruct (m n) as [r n1] eqn:Em. inversion E; subst. destruct (H _ _ _ Em) as [HP ->].
  split; [split; [exact HP|reflexivity]|reflexivity].
Qed.
Lemma doesc_weaken : forall A (m : cio A) (P Q : A -> ectx -> Prop) k k', doesc m P k -> (forall a c, P a c -> Q a c) -> k = k' -> doesc m Q k'.
Proof. clear. intros A m P Q k k' H HPQ <- n a c n' E. destruct (H _ _ _ _ E) as [HP ->]. split; auto. Qed.

Lemma indices_length : forall T h points, length (evaluate_at_indices d T h points) = length points.
Proof. intros T h points. unfold evaluate_at_indices. destruct (Nat.ltb _ _); [apply map_length|reflexivity]. Qed.

Lemma cost_at_ctx : forall T h points c, wf d ->
  doesc (evaluate_at_ctx_f aes status d T h points c) (fun _ _ => True)
    (at_calls d (start_of c (Z.to_nat h)) (Z.to_nat h) (length points)).
Proof.
  intros T h points c W. unfold evaluate_at_ctx_f.
  eapply (doesc_bind0 _ _ _ _ _ (fun _ => evaluate_at_checks d (ctx_key c) h points = Ok tt) _); [apply does_lift; intros [] Ha; exact Ha|].
  intros _ HC. apply (at_checks_inv d W) in HC. destruct HC as (Hh & HK & _).
  destruct (Nat.eqb_spec (length points) 0) as [E|E].
  - rewrite E. eapply doesc_weaken; [apply doesc_done; apply (does_lift _ _ (fun _ => True)); auto|auto|].
    unfold at_calls, walk_calls. rewrite Nat.mul_0_l, batches_0. lia.
  - eapply doesc_weaken; [eapply (doesc_bind _ _ _ _ _ _ (fun _ _ => True)); [apply cost_partials; auto; lia|]|auto|].
    + intros [st c1] [Hst _]. cbn [fst] in Hst. rewrite indices_length in Hst.
      eapply (doesc_bind _ _ _ _ _ (fun _ => True) _ (batches (length points * blocks d (Z.to_nat h))) 0).
      * eapply does_weaken; [apply (cost_finish T (ctx_key c) (Z.to_nat h) points); auto; lia|auto|].
        unfold at_calls, tree_level_of, blocks_of, walk_calls. fold (h2t d (Z.to_nat h)). fold (blocks d (Z.to_nat h)). unfold node in *. rewrite Hst.
        replace (h2t d (Z.to_nat h) - h2t d (Z.to_nat h)) with 0 by lia. lia.
      * intros r _. eapply doesc_weaken; [apply doesc_done; apply (does_lift _ _ (fun _ => True)); auto|auto|reflexivity].
    + rewrite indices_length. unfold at_calls, tree_level_of, blocks_of. fold (h2t d (Z.to_nat h)). fold (blocks d (Z.to_nat h)). lia.
Qed.

(** EvaluateUntil. *)
Lemma index_of_in : forall x l, match index_of x l with Some _ => In x l | None => ~ In x l end.
Proof.
  clear. intros x l. induction l as [|y l IH]; cbn [index_of]; [intros []|]. destruct (N.eqb_spec y x) as [->|Hn]; [left; reflexivity|].
  destruct (index_of x l); cbn [option_map]; [right; exact IH|]. intros [->|H]; auto.
Qed.
Lemma prefix_map_nodup : forall prefixes h tis0 tis pm, build_prefix_map d prefixes h tis0 = (tis, pm) -> NoDup tis0 ->
  NoDup tis /\ (forall t, In t tis <-> In t tis0 \/ In t (map (fun p => domain_to_tree_index d p h) prefixes)).
Proof.
  clear. induction prefixes as [|p prefixes IH]; intros h tis0 tis pm H HN; cbn [build_prefix_map map In] in *.
  - injection H as <- <-. split; [exact HN|]. intros t. tauto.
  - pose proof (index_of_in (domain_to_tree_index d p h) tis0) as HI. destruct (index_of (domain_to_tree_index d p h) tis0) as [k|].
    + destruct (build_prefix_map d prefixes h tis0) as [t' p'] eqn:E. injection H as <- <-. destruct (IH _ _ _ _ E HN) as [H1 H2].
      split; [exact H1|]. intros t. rewrite H2. split; [tauto|]. intros [|[<-|]]; auto.
    + destruct (build_prefix_map d prefixes h (tis0 ++ [domain_to_tree_index d p h])) as [t' p'] eqn:E. injection H as <- <-.
      destruct (IH _ _ _ _ E) as [H1 H2].
      { apply (NoDup_Add (Add_app _ tis0 [])). rewrite app_nil_r. split; assumption. }
      split; [exact H1|]. intros t. rewrite H2, in_app_iff. cbn [In]. tauto.
Qed.
Definition parents (prefixes : list N) (q : nat) : nat := length (nodup N.eq_dec (map (fun p => domain_to_tree_index d p q) prefixes)).
Lemma prefix_map_length : forall prefixes h tis pm, build_prefix_map d prefixes h [] = (tis, pm) -> length tis = parents prefixes h.
Proof.
  clear. intros prefixes h tis pm H. destruct (prefix_map_nodup _ _ _ _ _ H (NoDup_nil _)) as [H1 H2]. unfold parents.
  apply Nat.le_antisymm; apply NoDup_incl_length.
  - exact H1.
  - intros t Ht. apply nodup_In. apply H2 in Ht. destruct Ht as [[]|Ht]; exact Ht.
  - apply NoDup_nodup.
  - intros t Ht. apply nodup_In in Ht. apply H2. right. exact Ht.
Qed.

Definition until_cost (c : ectx) (h : nat) (prefixes : list N) : nat :=
  if Nat.eqb (length prefixes) 0 then full_calls d 0 h 1
  else let q := Z.to_nat (c_prev c) in
       walk_calls (h2t d q - start_of c q) (parents prefixes q) + full_calls d (h2t d q) h (parents prefixes q).

Lemma cost_expand_ctx : forall h tis c, wf d -> key_ok d (ctx_key c) -> h < nlevels d -> (tis <> [] -> (0 <= c_prev c < Z.of_nat h)%Z) ->
  doesc (expand_and_update_context_f aes status d h tis c)
    (fun e _ => length e = if Nat.eqb (length tis) 0 then 2 ^ h2t d h else length tis * 2 ^ (h2t d h - h2t d (Z.to_nat (c_prev c))))
    (if Nat.eqb (length tis) 0 then expand_calls (h2t d h) 1
     else walk_calls (h2t d (Z.to_nat (c_prev c)) - start_of c (Z.to_nat (c_prev c))) (length tis)
          + expand_calls (h2t d h - h2t d (Z.to_nat (c_prev c))) (length tis)).
Proof.
  intros h tis c W HK Hh HP. unfold expand_and_update_context_f.
  assert (HE : forall st c1 start, ctx_key c1 = ctx_key c -> start <= h2t d h ->
    doesc (bind_c c1
         (stop_level <~ lift (at_or_ub (d_h2t d) h) ;;
          cws <~ lift (subspan (k_cws (ctx_key c1)) start (stop_level - start)) ;;
          expand_seeds_f aes status st cws)
         (fun e => done (with_prev c1 (Z.of_nat h)) (lift (Ok e))))
      (fun e _ => length e = length st * 2 ^ (h2t d h - start)) (expand_calls (h2t d h - start) (length st))).
  { intros st c1 start Hk Hs.
    eapply doesc_weaken; [eapply (doesc_bind _ _ _ _ _ (fun e => length e = length st * 2 ^ (h2t d h - start)) _ (expand_calls (h2t d h - start) (length st)) 0)|intros a c' Ha; exact Ha|].
    - eapply (does_bind0 _ _ _ _ (fun x => x = h2t d h) _); [apply does_lift; intros a Ha; exact (h2t_ok h a Ha)|].
      intros stop ->. eapply (does_bind0 _ _ _ _ (fun x => length x = h2t d h - start) _).
      { apply does_lift. intros x Hx. apply (subspan_length _ _ _ _ _ Hx). rewrite Hk. pose proof (key_ok_h2t d W _ h HK Hh). lia. }
      intros cws Hc. rewrite <- Hc. apply cost_expand.
    - intros e He. eapply doesc_weaken; [apply doesc_done; apply (does_lift _ _ (fun x => x = e)); intros a Ha; injection Ha as <-; reflexivity| |reflexivity].
      cbv beta. intros a c' [-> _]. exact He.
    - lia. }
  destruct (Nat.eqb_spec (length tis) 0) as [E|E].
  - eapply (doesc_bind0 _ _ _ _ _ (fun x => x = ([(key_seed (ctx_key c), key_bit (ctx_key c))], c, 0)) _);
      [apply does_lift; intros a Ha; injection Ha as <-; reflexivity|].
    intros x ->. eapply doesc_weaken; [apply HE; [reflexivity|lia]| |].
    + cbv beta. intros e c' He. rewrite He. cbn [length]. rewrite Nat.sub_0_r. lia.
    + cbn [length]. rewrite Nat.sub_0_r. reflexivity.
  - assert (Hp : (0 <= c_prev c < Z.of_nat h)%Z) by (apply HP; intros ->; apply E; reflexivity).
    pose proof (wf_h2t_mono _ W (Z.to_nat (c_prev c)) h ltac:(lia) Hh) as HM.
    eapply (doesc_bind _ _ _ _ _ (fun x => length (fst (fst x)) = length tis /\ c_key (snd (fst x)) = c_key c /\ snd x = h2t d (Z.to_nat (c_prev c)))).
    + eapply does_weaken; [eapply (does_bind _ _ _ _ _ _ _ 0); [apply cost_partials; auto; lia|]|intros a Ha; exact Ha|lia].
      intros [st c1] (H1 & H2 & H3). cbn [fst snd] in *.
      eapply (does_bind0 _ _ _ _ (fun x => x = h2t d (Z.to_nat (c_prev c))) _ 0).
      { apply does_lift. intros a Ha. rewrite H2 in Ha. exact (h2t_okz _ a Ha). }
      intros s ->. apply does_lift. intros a Ha. injection Ha as <-. cbn [fst snd]. auto.
    + intros [[st c1] s] (H1 & H2 & H3). cbn [fst snd] in *. subst s. unfold node in *. rewrite <- H1. apply HE; [|lia].
      unfold ctx_key. rewrite H2. reflexivity.
Qed.

Lemma cost_until : forall T h prefixes c, wf d -> cty_ok T = true -> key_ok d (ctx_key c) ->
  doesc (evaluate_until_f aes status d T h prefixes c) (fun _ _ => True) (until_cost c (Z.to_nat h) prefixes).
Proof.
  intros T h prefixes c W HT HK. unfold evaluate_until_f.
  eapply (doesc_bind0 _ _ _ _ _ (fun g => evaluate_until_checks d T h prefixes c = Ok g) _); [apply does_lift; intros g Hg; exact Hg|].
  intros g HC. destruct (until_checks_inv d W _ _ _ _ _ HT HC) as (Hh & _ & Ho & He & _).
  destruct (build_prefix_map d prefixes (Z.to_nat (c_prev c)) []) as [tis pm] eqn:EB.
  pose proof (prefix_map_length _ _ _ _ EB) as HL.
  assert (HE : length tis = 0 <-> length prefixes = 0).
  { rewrite HL. unfold parents. destruct prefixes as [|p prefixes]; [cbn; tauto|]. split; [|discriminate]. intros H0. exfalso.
    assert (HI : In (domain_to_tree_index d p (Z.to_nat (c_prev c))) (nodup N.eq_dec (map (fun p => domain_to_tree_index d p (Z.to_nat (c_prev c))) (p :: prefixes)))).
    { apply nodup_In. left. reflexivity. }
    destruct (nodup _ _); [destruct HI|discriminate H0]. }
  eapply doesc_weaken; [eapply (doesc_bindc _ _ _ _ _ (fun _ _ => True)); [apply cost_expand_ctx; auto; [lia|]|]|auto|].
  - intros Ht. assert (prefixes <> []) by (intros ->; destruct tis; [apply Ht; reflexivity|destruct HE as [_ HE]; discriminate (HE eq_refl)]).
    destruct (Z.lt_ge_cases (c_prev c) 0) as [HX|HX]; [exfalso; apply H; apply He; exact HX|lia].
  - intros e c' Hlen. cbv beta in Hlen.
    eapply doesc_weaken; [apply doesc_done; eapply (does_bind _ _ _ _ (fun _ => True) (fun _ => True)); [apply cost_hash|intros hashed _; apply does_lift; auto]|auto|].
    rewrite map_length. unfold node in *. rewrite Hlen. reflexivity.
  - unfold until_cost. destruct (Nat.eqb_spec (length tis) 0) as [E|E].
    + destruct (Nat.eqb_spec (length prefixes) 0) as [E'|E']; [|tauto].
      unfold full_calls, tree_level_of, blocks_of. fold (h2t d (Z.to_nat h)). fold (blocks d (Z.to_nat h)). rewrite Nat.sub_0_r, Nat.mul_1_l. lia.
    + destruct (Nat.eqb_spec (length prefixes) 0) as [E'|E']; [tauto|]. rewrite <- HL.
      unfold full_calls, tree_level_of, blocks_of. fold (h2t d (Z.to_nat h)). fold (blocks d (Z.to_nat h)). lia.
Qed.

Lemma cost_apply_level : forall T keys points rs h start stop st, length st = length points ->
  does (apply_level_f aes status d T keys points rs h start stop st) (fun x => length (snd x) = length points)
    (walk_calls (stop - start) (length points) + batches (length points * blocks d h)).
Proof.
  intros T keys points rs h start stop st HL. unfold apply_level_f.
  eapply (does_bind _ _ _ _ (fun x => length x = length points)).
  - destruct (Nat.ltb_spec 0 (stop - start)) as [H|H].
    + apply (does_bind0 _ _ _ _ (fun _ => True)); [apply does_lift; auto|]. intros cws _. rewrite <- HL. apply cost_seeds_internal. exact HL.
    + eapply does_weaken; [apply (does_lift _ _ (fun x => length x = length points)); intros x Hx; injection Hx as <-; exact HL|auto|].
      replace (stop - start) with 0 by lia. unfold walk_calls. lia.
  - intros st' Hst. eapply does_weaken; [eapply (does_bind _ _ _ _ (fun _ => True) (fun x => length (snd x) = length points) _ 0); [apply cost_hash|]|auto|].
    + intros hashed _. apply does_lift. intros [v x] Hx. destruct (mapM _ _) as [y| | |]; try discriminate. cbn [bind] in Hx. injection Hx as <- <-. exact Hst.
    + rewrite map_length. unfold node in *. rewrite Hst. lia.
Qed.

Lemma cost_apply_loop : forall S T keys points rs (op : S -> list cval -> S * bool) (good : S -> bool),
  (forall s v, snd (op s v) = false -> good (fst (op s v)) = false) -> wf d ->
  forall n h start st s, length st = length points -> h + n = nlevels d -> 0 < n -> start <= h2t d h ->
  forall k s' k', apply_loop_f aes status d T keys points rs op n h start st s k = (Ok s', k') -> good s' = true ->
  k' = k + walk_calls (h2t d (nlevels d - 1) - start) (length points) + total (map (fun h => batches (length points * blocks d h)) (seq h n)).
Proof.
  intros S T keys points rs op good Hop W. induction n as [|n IH]; intros h start st s HL Hn Hp Hs k s' k' E HG; [lia|].
  cbn [apply_loop_f seq map total fold_right] in *. fold (total (map (fun h => batches (length points * blocks d h)) (seq (Datatypes.S h) n))).
  unfold bind_f in E. pose proof (cost_apply_level T keys points rs h start (h2t d h) st HL k) as HC.
  destruct (apply_level_f aes status d T keys points rs h start (h2t d h) st k) as [[[v st']| | |] k1]; try discriminate.
  destruct (HC _ _ eq_refl) as [Hst ->]. cbn [snd] in Hst. clear HC. pose proof (Hop s v) as Ho.
  destruct (op s v) as [s1 [|]]; cbn [fst snd] in Ho.
  - destruct n as [|n].
    + cbn [apply_loop_f seq map total fold_right] in *. unfold lift in E. inversion E. subst. replace (nlevels d - 1) with h by lia. lia.
    + pose proof (wf_h2t_mono _ W h (Datatypes.S h) ltac:(lia) ltac:(lia)) as HM.
      rewrite (IH (Datatypes.S h) (h2t d h) st' s1 Hst ltac:(lia) ltac:(lia) ltac:(lia) _ _ _ E HG).
      pose proof (h2t_le_last d W (Datatypes.S h) ltac:(lia)) as HX. unfold walk_calls.
      remember (h2t d (nlevels d - 1)) as z. remember (batches (length points)) as b. remember (h2t d h) as y.
      replace (2 * (z - start) * b) with (2 * (y - start) * b + 2 * (z - y) * b); [lia|]. rewrite <- Nat.mul_add_distr_r. f_equal. lia.
  - unfold lift in E. inversion E. subst. rewrite (Ho eq_refl) in HG. discriminate.
Qed.

Lemma cost_apply : forall S T keys points rs (op : S -> list cval -> S * bool) (good : S -> bool) s,
  (forall s v, snd (op s v) = false -> good (fst (op s v)) = false) -> wf d ->
  forall k s' k', evaluate_and_apply_f aes status d T keys points op rs s k = (Ok s', k') -> good s' = true ->
  length points = length keys /\ k' = k + apply_calls d (nlevels d) (length points).
Proof.
  intros S T keys points rs op good s Hop W k s' k' E HG. unfold evaluate_and_apply_f, bind_f, lift in E.
  destruct (Nat.eqb_spec (length points) (length keys)) as [HL|HL]; [|discriminate]. cbn [check] in E.
  destruct (iterM _ keys); try discriminate. split; [exact HL|].
  assert (HX : length (map (fun k => (key_seed k, key_bit k)) keys) = length points) by (rewrite map_length; lia).
  pose proof (wf_pos _ W) as HP.
  pose proof (cost_apply_loop S T keys points rs op good Hop W (nlevels d) 0 0 _ s HX eq_refl HP (Nat.le_0_l _) _ _ _ E HG) as HF.
  rewrite Nat.sub_0_r in HF. rewrite HF. unfold apply_calls, tree_level_of, blocks_of. fold (h2t d (nlevels d - 1)). fold (blocks d). unfold blocks. lia.
Qed.
End WithDpf.

Lemma cost_dcf_keys : forall random c alpha beta, wf (dc_dpf c) ->
  does (dcf_generate_keys_f aes status random c alpha beta) (fun _ => True) (key_calls (dc_dpf c) (nlevels (dc_dpf c))).
Proof.
  intros random c alpha beta W. unfold dcf_generate_keys_f. apply (does_bind0 _ _ _ _ (fun _ => True)); [apply does_lift; auto|].
  intros v _. apply cost_keys. exact W.
Qed.

Lemma cost_dcf_eval : forall c T keys points output, wf (dc_dpf c) ->
  does (dcf_batch_evaluate_f aes status c T keys points output) (fun _ => True)
    (apply_calls (dc_dpf c) (nlevels (dc_dpf c)) (length points)).
Proof.
  intros c T keys points output W n a n' E. split; [exact I|]. unfold dcf_batch_evaluate_f in E.
  unfold bind_f at 1 in E. destruct (lift (check (Nat.eqb (length keys) (length points)) INVALID_ARGUMENT) n) as [[[]| | |] n1] eqn:E1; try discriminate.
  inversion E1. subst n1. clear E1 H0.
  unfold bind_f at 1 in E. destruct (lift (check (Nat.eqb (length output) (length keys)) INVALID_ARGUMENT) n) as [[[]| | |] n1] eqn:E1; try discriminate.
  inversion E1. subst n1. clear E1 H0. cbv zeta in E.
  destruct (_ <? 0)%Z; [discriminate|]. unfold bind_f at 1 in E.
  match type of E with context [evaluate_and_apply_f _ _ ?d ?T ?k ?p ?o ?r ?s n] =>
    destruct (evaluate_and_apply_f aes status d T k p o r s n) as [[s'| | |] n1] eqn:E2; try discriminate end.
  unfold lift in E. destruct s' as [s'| | |]; try discriminate. cbn [bind] in E. inversion E. subst.
  apply (cost_apply (dc_dpf c) _ _ _ _ _ _ is_ok) in E2; [| |exact W|reflexivity].
  - destruct E2 as [_ ->]. reflexivity.
  - clear. intros s v. unfold dcf_accumulate. destruct s as [[l o]| | |]; cbn [fst snd is_ok]; auto.
    destruct (negb _); cbn [fst snd is_ok]; auto. destruct (bind _ _) as [x| | |]; cbn [fst snd is_ok]; auto.
Qed.

Lemma wf_register : forall T d, cty_ok T = true -> wf d -> wf (register_value_type T d).
Proof.
  clear. intros T d HT W. destruct W. constructor; try assumption. constructor; assumption.
Qed.
Lemma cost_mic_keys : forall random m r_in r_out, wf (dc_dpf (m_dcf m)) ->
  does (mic_gen_f aes status random m r_in r_out) (fun _ => length r_out = length (mp_intervals (m_params m)))
    (key_calls (dc_dpf (m_dcf m)) (nlevels (dc_dpf (m_dcf m))) + length r_out).
Proof.
  intros random m r_in r_out W. unfold mic_gen_f. cbv zeta.
  eapply (does_bind0 _ _ _ _ (fun _ => length r_out = length (mp_intervals (m_params m)))).
  { apply does_lift. intros a Ha. destruct (Nat.eqb_spec (length r_out) (length (mp_intervals (m_params m)))) as [H|H]; [exact H|discriminate]. }
  intros _ HL.
  do 2 (apply (does_bind0 _ _ _ _ (fun _ => True)); [apply does_lift; auto|]; intros _ _).
  eapply (does_bind _ _ _ _ (fun _ => True)).
  { apply (cost_dcf_keys random (dcf_register (TInt 128) (m_dcf m))). apply wf_register; [reflexivity|exact W]. }
  intros [key0 key1] _.
  eapply does_weaken; [eapply (does_bind _ _ _ _ _ _ _ 0); [apply (does_map _ _ _ (fun _ _ => True) (fun _ => 1))|]|intros a Ha; exact Ha|].
  - intros [i r] _. cbv zeta. intros n a n' E. unfold bind_f, rand128_f in E. split; [exact I|].
    destruct (status n =? 0)%Z; [discriminate|]. destruct (status n =? 1)%Z; [|discriminate]. unfold lift in E. inversion E. lia.
  - intros shares _. apply does_lift. intros a _. exact HL.
  - rewrite total_const, combine_length, HL. lia.
Qed.

Lemma flat_map_length_const : forall A B (f : A -> list B) k l, (forall a, length (f a) = k) -> length (flat_map f l) = length l * k.
Proof. clear. intros A B f k l H. induction l as [|a l IH]; [reflexivity|]. cbn [flat_map length]. rewrite app_length, IH, H. lia. Qed.

Lemma cost_mic_eval : forall m keys points, wf (dc_dpf (m_dcf m)) ->
  does (mic_batch_eval_f aes status m keys points) (fun _ => True)
    (2 * apply_calls (dc_dpf (m_dcf m)) (nlevels (dc_dpf (m_dcf m))) (length keys * length (mp_intervals (m_params m)))).
Proof.
  intros m keys points W. unfold mic_batch_eval_f. cbv zeta.
  eapply (does_bind0 _ _ _ _ (fun _ => length keys = length points)).
  { apply does_lift. intros a Ha. destruct (Nat.eqb_spec (length keys) (length points)) as [H|H]; [exact H|discriminate]. }
  intros _ HL. apply (does_bind0 _ _ _ _ (fun _ => True)); [apply does_lift; auto|]. intros _ _.
  destruct (_ <? _)%N; [intros n a n' E; discriminate|].
  set (tasks := flat_map _ _).
  assert (HT : length tasks = length keys * length (mp_intervals (m_params m))).
  { unfold tasks. rewrite (flat_map_length_const _ _ _ (length (mp_intervals (m_params m)))).
    - rewrite combine_length. f_equal. lia.
    - intros a. rewrite map_length, combine_length, seq_length. lia. }
  eapply does_weaken; [eapply (does_bind _ _ _ _ (fun _ => True) (fun _ => True)); [apply cost_dcf_eval; exact W|]|auto|].
  - intros sp _. eapply (does_bind _ _ _ _ (fun _ => True) _ _ 0); [apply cost_dcf_eval; exact W|]. intros sq _. apply does_lift. auto.
  - rewrite !map_length, HT. lia.
Qed.
End Cost.
