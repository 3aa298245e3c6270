(** Failures of OpenSSL calls in PIR. *)
From Coq Require Import List NArith ZArith Bool Lia ZifyBool ZifyNat ZifyN.
From Verif Require Import Base ListUtil ValueTypesModel DpfModel FaultModel FaultSpec FaultProofs PirDbModel PirModel HashModel SparseModel FaultPirModel.
Import ListNotations.
Open Scope N_scope.

Section Proofs.
Variable aes : N -> N -> N.
Variable status : nat -> Z.
Variable random : nat -> N.
Notation rep_at := (reported_at status).
Notation rep := (reported status).
Notation rep_lift := (rep_lift aes status random).
Notation rep_bind := (rep_bind aes status random).
Notation rep_bind_ok := (rep_bind_ok aes status random).
Notation rep_status := (rep_status aes status random).
Notation rep_create := (rep_create aes status random).

Lemma rep_ext : forall A (m : io A) r r', rep m r -> r = r' -> rep m r'.
Proof. intros A m r r' H <-. exact H. Qed.
Lemma rep_mapM : forall A B (f : A -> io B) (g : A -> res B) l, (forall a, rep (f a) (g a)) -> rep (map_f f l) (mapM g l).
Proof.
  intros A B f g l H. induction l as [|a l IH]; cbn [map_f mapM]; [apply rep_lift|].
  apply rep_bind; [apply H|]. intros b _. apply rep_bind; [exact IH|]. intros bs _. apply rep_lift.
Qed.

Lemma rep_prng : forall seed, rep (prng_create_f status seed) (prng_create seed).
Proof.
  intros seed. unfold prng_create_f.
  apply (rep_ext _ _ (p <- prng_create seed ;; Ok p)); [|destruct (prng_create seed); reflexivity].
  apply rep_bind; [apply rep_lift|]. intros p _. eapply rep_bind_ok; [apply rep_status|]. apply rep_lift.
Qed.

Lemma rep_dense_expand : forall d key, rep (dense_expand_f aes status d key) (dense_expand aes d key).
Proof.
  intros d key. unfold dense_expand_f, dense_expand. apply rep_bind; [apply rep_lift|]. intros ctx _. apply rep_bind; [|intros v _; apply rep_lift].
  intros n. pose proof (rep_c_reported status _ _ _ _ (rep_until aes status (fun _ => 0) d block_type 0 [] ctx) n) as H.
  change (evaluate_next_f aes status d block_type [] ctx) with (evaluate_until_f aes status d block_type 0 [] ctx).
  change (evaluate_next aes d block_type [] ctx) with (evaluate_until aes d block_type 0 [] ctx).
  destruct (evaluate_until_f aes status d block_type 0 [] ctx n) as [[r c'] n']. cbn [fst snd] in *. destruct H as (H1 & H2).
  split; [exact H1|]. cbn [fst snd]. destruct H2 as [[H2 H3]|[H2 H3]]; [left|right]; split; auto. rewrite <- H3. reflexivity.
Qed.
Lemma rep_dense_plain : forall t s req, rep (dense_handle_plain_f aes status t s req) (dense_handle_plain aes t s req).
Proof.
  intros t s req. unfold dense_handle_plain_f, dense_handle_plain. destruct req; try apply rep_lift.
  apply rep_bind; [apply rep_lift|]. intros _ _. apply rep_bind; [apply rep_mapM; intros; apply rep_dense_expand|]. intros sel _. apply rep_lift.
Qed.
Lemma rep_selections : forall d fp req, rep (sparse_selections_f aes status d fp req) (sparse_selections aes d fp req).
Proof.
  intros d fp req. unfold sparse_selections_f, sparse_selections. destruct req; try apply rep_lift.
  apply rep_bind; [apply rep_lift|]. intros _ _. apply rep_bind; [apply rep_lift|]. intros _ _. apply rep_mapM; intros; apply rep_dense_expand.
Qed.
Lemma rep_cuckoo_plain : forall t s req, rep (cuckoo_handle_plain_f aes status t s req) (cuckoo_handle_plain aes t s req).
Proof. intros t s req. unfold cuckoo_handle_plain_f, cuckoo_handle_plain. apply rep_bind; [apply rep_selections|]. intros sel _. apply rep_lift. Qed.
Lemma rep_simple_plain : forall t s req, rep (simple_handle_plain_f aes status t s req) (simple_handle_plain aes t s req).
Proof. intros t s req. unfold simple_handle_plain_f, simple_handle_plain. apply rep_bind; [apply rep_selections|]. intros sel _. apply rep_lift. Qed.

Lemma rep_helper : forall parse hp_f hp, (forall q, rep (hp_f q) (hp q)) -> forall r req,
  rep (handle_helper_request_f aes status parse hp_f r req) (handle_helper_request aes parse hp r req).
Proof.
  intros parse hp_f hp H r req. unfold handle_helper_request_f, handle_helper_request. destruct req; try apply rep_lift. destruct r; try apply rep_lift.
  apply rep_bind; [apply rep_lift|]. intros m _. apply rep_bind; [apply rep_lift|]. intros i _. apply rep_bind; [apply H|]. intros a _.
  apply rep_bind; [apply rep_prng|]. intros p _. apply rep_lift.
Qed.
(** The Leader: the failure may be hidden by an error of the sender. *)
Lemma rep_leader : forall hp_f hp, (forall q, rep (hp_f q) (hp q)) -> forall sender req n,
  let o := handle_leader_request_f hp_f (Leader sender) req n in
  (n <= snd o)%nat /\
  (succeed status n (snd o) /\ fst o = handle_leader_request hp (Leader sender) req \/
   last_fails status n (snd o) /\
   (fst o = Err INTERNAL \/ exists p e r, req = RqLeader (Some p) (Some e) /\ snd (sender (RqHelper e)) = r /\ (forall x, r <> Ok x) /\
                                          fst o = (x <- r ;; Err INTERNAL))).
Proof.
  intros hp_f hp H sender req n o. unfold o. clear o. unfold handle_leader_request_f, handle_leader_request.
  destruct req as [| |q|[p|] [e|]|e]; try (cbn; split; [lia|]; left; split; [intros i Hi; lia|reflexivity]).
  unfold bind_f, lift. cbn [bind].
  destruct (sender (RqHelper e)) as [has_run hr] eqn:ES.
  unfold while_waiting_f, while_waiting, lift. destruct has_run.
  2:{ cbn [fst snd]. split; [apply Nat.le_refl|]. left. split; [intros i Hi; exfalso; clear - Hi; lia|destruct hr; reflexivity]. }
  destruct (H (RqPlain p) n) as (H1 & H2). destruct (hp_f (RqPlain p) n) as [x n1] eqn:EH. cbn [fst snd] in H1, H2.
  destruct H2 as [[H2 ->]|[H2 ->]].
  - destruct (hp (RqPlain p)) as [a|c| |]; cbn [fst snd bind]; (split; [exact H1|]); left; split; auto.
  - cbn [fst snd]. split; [exact H1|]. right. split; [exact H2|]. destruct hr as [a|c| |] eqn:Eh; cbn [bind check].
    + left. reflexivity.
    + right. exists p, e, (Err c). rewrite ES. repeat split. discriminate.
    + right. exists p, e, Crash. rewrite ES. repeat split. discriminate.
    + right. exists p, e, UB. rewrite ES. repeat split. discriminate.
Qed.

Lemma rep_dense_response : forall resp st, rep (dense_handle_response_f aes status resp st) (dense_handle_response aes resp st).
Proof.
  intros resp st. unfold dense_handle_response_f, dense_handle_response. destruct resp as [l|]; [|apply rep_lift].
  do 3 (apply rep_bind; [apply rep_lift|]; intros ? _). apply rep_bind; [apply rep_prng|]. intros p _. apply rep_lift.
Qed.
Lemma rep_cuckoo_response : forall c resp st, rep (cuckoo_handle_response_f aes status c resp st) (cuckoo_handle_response aes c resp st).
Proof.
  intros c resp st. unfold cuckoo_handle_response_f, cuckoo_handle_response. destruct resp as [l|]; [|apply rep_lift].
  apply rep_bind; [apply rep_lift|]. intros [seed qs] _. apply rep_bind; [apply rep_lift|]. intros _ _.
  apply rep_bind; [apply rep_dense_response|]. intros raw _. apply rep_lift.
Qed.
Lemma rep_simple_response : forall resp st, rep (simple_handle_response_f aes status resp st) (simple_handle_response aes resp st).
Proof.
  intros resp st. unfold simple_handle_response_f, simple_handle_response. destruct resp as [l|]; [|apply rep_lift].
  apply rep_bind; [apply rep_lift|]. intros [seed qs] _. apply rep_bind; [apply rep_lift|]. intros _ _.
  apply rep_bind; [apply rep_dense_response|]. intros raw _. apply rep_lift.
Qed.

Ltac lifts := repeat first [apply rep_lift | apply rep_create | (apply rep_bind; [first [apply rep_lift | apply rep_create]|]; intros ? _)].
Lemma rep_dense_server : forall F clog cfg db, rep (dense_create_plain_f status F clog cfg db) (dense_create_plain F clog cfg db).
Proof. intros. unfold dense_create_plain_f, dense_create_plain. destruct cfg; lifts. Qed.
Lemma rep_cuckoo_server : forall sha F clog p db, rep (cuckoo_create_plain_f status sha F clog p db) (cuckoo_create_plain sha F clog p db).
Proof. intros. unfold cuckoo_create_plain_f, cuckoo_create_plain. lifts. Qed.
Lemma rep_simple_server : forall sha F clog p db, rep (simple_create_plain_f status sha F clog p db) (simple_create_plain sha F clog p db).
Proof. intros. unfold simple_create_plain_f, simple_create_plain. lifts. Qed.
Lemma rep_dense_client : forall F clog cfg b, rep (dense_client_create_f status F clog cfg b) (dense_client_create F clog cfg b).
Proof. intros. unfold dense_client_create_f, dense_client_create. destruct cfg; lifts. Qed.
Lemma rep_cuckoo_client : forall sha F clog p b, rep (cuckoo_client_create_f status sha F clog p b) (cuckoo_client_create sha F clog p b).
Proof.
  intros. unfold cuckoo_client_create_f, cuckoo_client_create. apply rep_bind; [apply rep_lift|]. intros _ _. destruct p; lifts.
  apply rep_bind; [apply rep_dense_client|]. intros c _. apply rep_lift.
Qed.
Lemma rep_simple_client : forall sha F clog p b, rep (simple_client_create_f status sha F clog p b) (simple_client_create sha F clog p b).
Proof.
  intros. unfold simple_client_create_f, simple_client_create. apply rep_bind; [apply rep_lift|]. intros _ _. destruct p; lifts.
  apply rep_bind; [apply rep_dense_client|]. intros c _. apply rep_lift.
Qed.
End Proofs.

(** ** The calls made do not depend on the results of later calls *)
Section Local.
Variable aes : N -> N -> N.
Variables s1 s2 : nat -> Z.
Variable random : nat -> N.
Definition local {A} (m1 m2 : io A) : Prop := forall n, (n <= snd (m1 n))%nat /\ ((forall i, (n <= i < snd (m1 n))%nat -> s2 i = s1 i) -> m2 n = m1 n).
Lemma local_lift : forall A (r : res A), local (lift r) (lift r).
Proof. intros A r n. split; [apply Nat.le_refl|reflexivity]. Qed.
Lemma local_bind : forall A B (m1 m2 : io A) (f1 f2 : A -> io B), local m1 m2 -> (forall a, local (f1 a) (f2 a)) -> local (bind_f m1 f1) (bind_f m2 f2).
Proof.
  intros A B m1 m2 f1 f2 Hm Hf n. unfold bind_f. destruct (Hm n) as [H1 H2]. destruct (m1 n) as [[a| | |] n1]; cbn [snd] in *;
    try (split; [exact H1|]; intros H; rewrite H2 by exact H; reflexivity).
  destruct (Hf a n1) as [H3 H4]. split; [lia|]. intros H. rewrite H2 by (intros i Hi; apply H; lia). apply H4. intros i Hi. apply H. lia.
Qed.
Lemma local_map : forall A B (f1 f2 : A -> io B) l, (forall a, local (f1 a) (f2 a)) -> local (map_f f1 l) (map_f f2 l).
Proof.
  intros A B f1 f2 l H. induction l as [|a l IH]; cbn [map_f]; [apply local_lift|]. apply local_bind; [apply H|]. intros b.
  apply local_bind; [exact IH|]. intros bs. apply local_lift.
Qed.
Lemma local_call : forall A (g : Z -> nat -> res A), local (fun n => (g (s1 n) n, S n)) (fun n => (g (s2 n) n, S n)).
Proof. intros A g n. cbn [snd]. split; [lia|]. intros H. rewrite H by lia. reflexivity. Qed.
Lemma local_prg : forall key input, local (prg_evaluate_f aes s1 key input) (prg_evaluate_f aes s2 key input).
Proof.
  intros key input. unfold prg_evaluate_f. apply local_bind; [|intros; apply local_lift]. apply local_map. intros b.
  apply local_bind; [|intros; apply local_lift]. apply (local_call _ (fun z _ => if (z =? 1)%Z then Ok (map (aes key) (map sigma b)) else Err INTERNAL)).
Qed.
Lemma local_correction : forall d h a b alpha beta i,
  local (compute_value_correction_f aes s1 d h a b alpha beta i) (compute_value_correction_f aes s2 d h a b alpha beta i).
Proof. intros. unfold compute_value_correction_f. apply local_bind; [apply local_prg|]. intros x. apply local_lift. Qed.
Lemma local_loop : forall d m i alpha beta g, local (generate_loop_f aes s1 d m i alpha beta g) (generate_loop_f aes s2 d m i alpha beta g).
Proof.
  intros d. induction m as [|m IH]; intros; cbn [generate_loop_f]; [apply local_lift|]. apply local_bind.
  - unfold generate_next_f. apply local_bind.
    + destruct (tree_to_hierarchy d (i - 1)); [|apply local_lift]. apply local_bind; [apply local_lift|]. intros b. apply local_correction.
    + intros values. do 2 (apply local_bind; [apply local_prg|]; intros ?). apply local_lift.
  - intros [g1 cw]. apply local_bind; [apply IH|]. intros [g2 cws]. apply local_lift.
Qed.
Lemma local_keys : forall d alpha beta, local (generate_keys_f aes s1 random d alpha beta) (generate_keys_f aes s2 random d alpha beta).
Proof.
  intros d alpha beta. unfold generate_keys_f. do 3 (apply local_bind; [apply local_lift|]; intros _).
  do 2 (apply local_bind; [apply (local_call _ (fun z n => if (z =? 1)%Z then Ok (random n) else UB))|]; intros ?).
  apply local_bind; [apply local_loop|]. intros [g cws]. apply local_bind; [apply local_lift|]. intros b.
  apply local_bind; [apply local_correction|]. intros l. apply local_lift.
Qed.
End Local.
