(** Evaluation and key generation depend on the block cipher only through its values under
    the three fixed keys. *)
From Coq Require Import List NArith ZArith Bool.
From Verif Require Import Base ListUtil ValueTypesModel DpfModel PirDbModel PirModel HashModel SparseModel.
Import ListNotations.
Open Scope N_scope.

(** Two ciphers agree under the fixed keys. *)
Definition same_prg (g g' : N -> N -> N) : Prop :=
  forall k x, In k [kPrgKeyLeft; kPrgKeyRight; kPrgKeyValue] -> g k x = g' k x.

Lemma mapM_ext_all : forall A B (f f' : A -> res B) l, (forall x, f x = f' x) -> mapM f l = mapM f' l.
Proof. intros A B f f' l H. induction l as [|x l IH]; cbn [mapM]; [reflexivity|]. rewrite H, IH. reflexivity. Qed.
Lemma foldM_ext_all : forall A S (f f' : S -> A -> res S) l s, (forall s x, f s x = f' s x) -> foldM f l s = foldM f' l s.
Proof.
  intros A S f f' l. induction l as [|x l IH]; intros s H; cbn [foldM]; [reflexivity|]. rewrite H.
  destruct (f' s x); cbn [bind]; auto.
Qed.

Section Ext.
Variables g g' : N -> N -> N.
Hypothesis Hg : same_prg g g'.

Lemma prg_same : forall k l, In k [kPrgKeyLeft; kPrgKeyRight; kPrgKeyValue] -> prg_evaluate g k l = prg_evaluate g' k l.
Proof using Hg.
  intros k l Hk. unfold prg_evaluate. f_equal. apply map_ext. intros b. f_equal. apply map_ext. intros x. apply Hg. exact Hk.
Qed.
Lemma prg_left : forall l, prg_evaluate g kPrgKeyLeft l = prg_evaluate g' kPrgKeyLeft l.
Proof using Hg. intros l. apply prg_same. left. reflexivity. Qed.
Lemma prg_right : forall l, prg_evaluate g kPrgKeyRight l = prg_evaluate g' kPrgKeyRight l.
Proof using Hg. intros l. apply prg_same. right. left. reflexivity. Qed.
Lemma prg_value : forall l, prg_evaluate g kPrgKeyValue l = prg_evaluate g' kPrgKeyValue l.
Proof using Hg. intros l. apply prg_same. right. right. left. reflexivity. Qed.

Lemma walk_batches_same : forall bs ns nl ncw rs cws start,
  walk_batches g ns nl ncw rs cws start bs = walk_batches g' ns nl ncw rs cws start bs.
Proof using Hg.
  induction bs as [|b bs IH]; intros; cbn [walk_batches]; [reflexivity|]. rewrite IH.
  erewrite foldM_ext_all; [reflexivity|]. intros s x. unfold walk_batch_level. rewrite prg_left, prg_right. reflexivity.
Qed.
Lemma evaluate_seeds_same : forall st paths cws, evaluate_seeds g st paths cws = evaluate_seeds g' st paths cws.
Proof using Hg.
  intros. unfold evaluate_seeds, evaluate_seeds_internal. rewrite walk_batches_same. reflexivity.
Qed.
Lemma expand_level_same : forall cw st, expand_level g cw st = expand_level g' cw st.
Proof using Hg.
  intros. unfold expand_level. f_equal. apply map_ext. intros b. unfold expand_batch. rewrite prg_left, prg_right. reflexivity.
Qed.
Lemma expand_seeds_same : forall st cws, expand_seeds g st cws = expand_seeds g' st cws.
Proof using Hg.
  intros st cws. unfold expand_seeds.
  assert (H : fold_left (fun s cw => expand_level g cw s) cws st = fold_left (fun s cw => expand_level g' cw s) cws st).
  { revert st. induction cws as [|cw cws IH]; intros st; cbn [fold_left]; [reflexivity|]. rewrite expand_level_same. apply IH. }
  rewrite H. reflexivity.
Qed.
Lemma compute_partial_same : forall d prefixes h u c,
  compute_partial_evaluations g d prefixes h u c = compute_partial_evaluations g' d prefixes h u c.
Proof using Hg.
  intros. unfold compute_partial_evaluations.
  repeat (match goal with |- bind ?r _ = bind ?r _ => destruct r as [?| | |]; cbn [bind]; try reflexivity end;
          repeat match goal with |- (let '(_, _) := ?p in _) = _ => destruct p end).
  rewrite evaluate_seeds_same. reflexivity.
Qed.
Lemma expand_and_update_same : forall d h prefixes c,
  expand_and_update_context g d h prefixes c = expand_and_update_context g' d h prefixes c.
Proof using Hg.
  intros. unfold expand_and_update_context. rewrite compute_partial_same.
  destruct (if Nat.eqb (length prefixes) 0 then _ else _) as [[[st c1] sl]| | |]; try reflexivity.
  destruct (at_or_ub (d_h2t d) h); cbn [bind]; try reflexivity.
  destruct (subspan _ _ _); cbn [bind]; try reflexivity. rewrite expand_seeds_same. reflexivity.
Qed.
Lemma evaluate_until_same : forall d T h prefixes c, evaluate_until g d T h prefixes c = evaluate_until g' d T h prefixes c.
Proof using Hg.
  intros. unfold evaluate_until. destruct (evaluate_until_checks d T h prefixes c); try reflexivity.
  destruct (build_prefix_map d prefixes (Z.to_nat (c_prev c)) []) as [tis pm]. rewrite expand_and_update_same.
  destruct (expand_and_update_context g' d (Z.to_nat h) tis c) as [e c']. f_equal.
  destruct e as [e| | |]; cbn [bind]; try reflexivity. unfold hash_expanded_seeds. rewrite prg_value. reflexivity.
Qed.
Lemma dense_expand_same : forall d key, dense_expand g d key = dense_expand g' d key.
Proof using Hg.
  intros. unfold dense_expand, evaluate_next. cbn [length Nat.eqb]. destruct (create_evaluation_context d key); cbn [bind]; [|reflexivity..].
  rewrite evaluate_until_same. reflexivity.
Qed.

Lemma compute_value_correction_same : forall d h sa sb a b inv,
  compute_value_correction g d h sa sb a b inv = compute_value_correction g' d h sa sb a b inv.
Proof using Hg. intros. unfold compute_value_correction. rewrite prg_value. reflexivity. Qed.
Lemma generate_next_same : forall d i alpha beta st, generate_next g d i alpha beta st = generate_next g' d i alpha beta st.
Proof using Hg.
  intros. unfold generate_next. rewrite !prg_left, !prg_right.
  destruct (tree_to_hierarchy d (i - 1)) as [h|]; [|reflexivity].
  destruct (at_or_ub beta h) as [b| | |]; cbn [bind]; try reflexivity. rewrite compute_value_correction_same. reflexivity.
Qed.
Lemma generate_loop_same : forall d n i alpha beta st, generate_loop g d n i alpha beta st = generate_loop g' d n i alpha beta st.
Proof using Hg.
  intros d. induction n as [|n IH]; intros; cbn [generate_loop]; [reflexivity|]. rewrite generate_next_same.
  destruct (generate_next g' d i alpha beta st) as [[st' cw]| | |]; cbn [bind]; try reflexivity. rewrite IH. reflexivity.
Qed.
Lemma generate_keys_same : forall d alpha beta s0 s1, generate_keys g d alpha beta s0 s1 = generate_keys g' d alpha beta s0 s1.
Proof using Hg.
  intros. unfold generate_keys. rewrite generate_loop_same.
  repeat (match goal with |- bind ?r _ = bind ?r _ => destruct r as [?| | |]; cbn [bind]; try reflexivity end;
          repeat match goal with |- (let '(_, _) := ?p in _) = _ => destruct p end).
  rewrite compute_value_correction_same. reflexivity.
Qed.
Lemma dense_requests_same : forall c qs seeds pad,
  dense_create_plain_requests g c qs seeds pad = dense_create_plain_requests g' c qs seeds pad.
Proof using Hg.
  intros. unfold dense_create_plain_requests. destruct (iterM _ qs); cbn [bind]; try reflexivity.
  erewrite mapM_ext_all; [reflexivity|]. intros x. unfold dense_keys. apply generate_keys_same.
Qed.
Lemma dense_handle_plain_same : forall t s req, dense_handle_plain g t s req = dense_handle_plain g' t s req.
Proof using Hg.
  intros t s req. unfold dense_handle_plain. destruct req; try reflexivity. destruct (check _ _); cbn [bind]; try reflexivity.
  erewrite mapM_ext_all; [reflexivity|]. intros x. apply dense_expand_same.
Qed.
Lemma sparse_selections_same : forall d fp req, sparse_selections g d fp req = sparse_selections g' d fp req.
Proof using Hg.
  intros d fp req. unfold sparse_selections. destruct req; try reflexivity. erewrite mapM_ext_all; [reflexivity|]. intros x. apply dense_expand_same.
Qed.
Lemma cuckoo_handle_plain_same : forall t s req, cuckoo_handle_plain g t s req = cuckoo_handle_plain g' t s req.
Proof using Hg. intros. unfold cuckoo_handle_plain. rewrite sparse_selections_same. reflexivity. Qed.
Lemma simple_handle_plain_same : forall t s req, simple_handle_plain g t s req = simple_handle_plain g' t s req.
Proof using Hg. intros. unfold simple_handle_plain. rewrite sparse_selections_same. reflexivity. Qed.
Lemma cuckoo_requests_same : forall c qs seeds pad,
  cuckoo_create_plain_requests g c qs seeds pad = cuckoo_create_plain_requests g' c qs seeds pad.
Proof using Hg. intros. unfold cuckoo_create_plain_requests. destruct (mapM _ qs); cbn [bind]; try reflexivity. rewrite dense_requests_same. reflexivity. Qed.
Lemma simple_requests_same : forall c qs seeds pad,
  simple_create_plain_requests g c qs seeds pad = simple_create_plain_requests g' c qs seeds pad.
Proof using Hg. intros. unfold simple_create_plain_requests. destruct (mapM _ qs); cbn [bind]; try reflexivity. rewrite dense_requests_same. reflexivity. Qed.
End Ext.
