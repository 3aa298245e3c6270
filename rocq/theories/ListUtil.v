(** Lemmas about lists, the result monad and words. *)
From Coq Require Import List NArith ZArith Lia Bool ZifyBool ZifyNat ZifyN.
From Verif Require Import Base.
Import ListNotations.
Ltac Zify.zify_post_hook ::= Z.div_mod_to_equations.

Lemma bind_ok : forall A B (r : res A) (f : A -> res B) b,
  bind r f = Ok b <-> exists a, r = Ok a /\ f a = Ok b.
Proof.
  intros A B r f b; destruct r; cbn [bind]; split; intros H;
    try discriminate; eauto;
    destruct H as (x & Hx & Hf); congruence.
Qed.

Ltac inv H := inversion H; subst; clear H.
Ltac fcons H a b := apply Forall_cons_iff in H; destruct H as [a b].
Ltac bind_inv H :=
  let a := fresh "a" in let H1 := fresh "Hb" in
  apply bind_ok in H; destruct H as (a & H1 & H).

Lemma check_ok : forall b c u, check b c = Ok u <-> b = true.
Proof. intros [|] c []; cbn; split; congruence. Qed.
Lemma check_true : forall c, check true c = Ok tt.
Proof. reflexivity. Qed.
Lemma abort_unless_ok : forall b u, abort_unless b = Ok u <-> b = true.
Proof. intros [|] []; cbn; split; congruence. Qed.

Lemma mapM_ok_iff : forall A B (f : A -> res B) l bs,
  mapM f l = Ok bs <-> Forall2 (fun a b => f a = Ok b) l bs.
Proof.
  induction l as [|a l IH]; intros bs; cbn [mapM]; split; intros H.
  - inv H. constructor.
  - inv H. reflexivity.
  - bind_inv H. bind_inv H. inv H. constructor; auto. apply IH; auto.
  - inv H. rewrite H2. cbn [bind]. apply IH in H4. rewrite H4. reflexivity.
Qed.

Lemma mapM_map_ok : forall A B (f : A -> res B) (g : A -> B) l,
  (forall a, In a l -> f a = Ok (g a)) -> mapM f l = Ok (map g l).
Proof.
  induction l as [|a l IH]; intros H; cbn [mapM map]; auto.
  rewrite H by (left; auto). cbn [bind].
  rewrite IH by (intros; apply H; right; auto). reflexivity.
Qed.

Lemma mapM_ext : forall A B (f g : A -> res B) l,
  (forall a, In a l -> f a = g a) -> mapM f l = mapM g l.
Proof.
  induction l as [|a l IH]; intros H; cbn [mapM]; auto.
  rewrite H by (left; auto). rewrite IH by (intros; apply H; right; auto). reflexivity.
Qed.

Lemma Forall2_length : forall A B (R : A -> B -> Prop) l1 l2,
  Forall2 R l1 l2 -> length l1 = length l2.
Proof. induction 1; cbn [length]; congruence. Qed.

Lemma mapM_length : forall A B (f : A -> res B) l bs,
  mapM f l = Ok bs -> length bs = length l.
Proof. intros A B f l bs H. apply mapM_ok_iff in H. symmetry. eapply Forall2_length; eauto. Qed.

Lemma mapM_safe : forall A B (f : A -> res B) l,
  (forall a, In a l -> safe (f a)) -> safe (mapM f l).
Proof.
  induction l as [|a l IH]; intros H; cbn [mapM].
  - split; discriminate.
  - pose proof (H a (or_introl eq_refl)) as [H1 H2].
    destruct (f a); cbn [bind]; try congruence; try (split; discriminate).
    destruct IH as [H3 H4]; [intros; apply H; right; auto|].
    destruct (mapM f l); cbn [bind]; try congruence; split; discriminate.
Qed.

Lemma bind_safe : forall A B (r : res A) (f : A -> res B),
  safe r -> (forall a, r = Ok a -> safe (f a)) -> safe (bind r f).
Proof.
  intros A B r f [H1 H2] H; destruct r; cbn [bind]; try congruence; auto.
  split; discriminate.
Qed.
Lemma check_safe : forall b c, safe (check b c).
Proof. intros [|] c; split; discriminate. Qed.
Lemma ok_safe : forall A (a : A), safe (Ok a).
Proof. split; discriminate. Qed.
Lemma err_safe : forall A c, safe (@Err A c).
Proof. split; discriminate. Qed.
Lemma iterM_safe : forall A (f : A -> res unit) l,
  (forall a, In a l -> safe (f a)) -> safe (iterM f l).
Proof.
  induction l as [|a l IH]; intros H; cbn [iterM]; [apply ok_safe|].
  apply bind_safe; [apply H; left; auto|]. intros; apply IH; intros; apply H; right; auto.
Qed.
Lemma iterM_ok : forall A (f : A -> res unit) l,
  iterM f l = Ok tt <-> Forall (fun a => f a = Ok tt) l.
Proof.
  induction l as [|a l IH]; cbn [iterM]; split; intros H; auto.
  - bind_inv H. destruct a0. constructor; auto. apply IH; auto.
  - inv H. rewrite H2. cbn [bind]. apply IH; auto.
Qed.

Lemma nth_error_map_some : forall A B (f : A -> B) l i a,
  nth_error l i = Some a -> nth_error (map f l) i = Some (f a).
Proof. intros. rewrite nth_error_map, H. reflexivity. Qed.

Lemma Forall2_nth_error : forall A B (R : A -> B -> Prop) l1 l2,
  Forall2 R l1 l2 <->
  length l1 = length l2 /\
  forall i a b, nth_error l1 i = Some a -> nth_error l2 i = Some b -> R a b.
Proof.
  induction l1 as [|x l1 IH]; intros [|y l2]; split; intros H.
  - split; auto. intros [|i]; cbn; discriminate.
  - constructor.
  - inv H.
  - destruct H; discriminate.
  - inv H.
  - destruct H; discriminate.
  - inv H. apply IH in H5. destruct H5 as [HL HR]. split; cbn; [lia|].
    intros [|i] a b; cbn; intros Ha Hb.
    + inv Ha; inv Hb; auto.
    + eauto.
  - destruct H as [HL HR]. constructor.
    + apply (HR 0%nat); reflexivity.
    + apply IH. split; [cbn in HL; lia|]. intros i a b Ha Hb. apply (HR (S i)); auto.
Qed.

Lemma nth_error_ext : forall A (l1 l2 : list A),
  (forall i, nth_error l1 i = nth_error l2 i) -> l1 = l2.
Proof.
  induction l1 as [|x l1 IH]; intros [|y l2] H; auto.
  - specialize (H 0%nat); discriminate.
  - specialize (H 0%nat); discriminate.
  - pose proof (H 0%nat) as H0. cbn in H0. inv H0. f_equal. apply IH.
    intros i. apply (H (S i)).
Qed.

Open Scope N_scope.

(** Little-endian encode/decode. *)
Lemma le_encode_length : forall n x, length (le_encode n x) = n.
Proof. induction n; intros; cbn [le_encode length]; auto. Qed.

Lemma le_decode_bound : forall b, le_decode b < 256 ^ N.of_nat (length b).
Proof.
  induction b as [|x b IH]; cbn [le_decode length]; [cbn; lia|].
  rewrite Nat2N.inj_succ, N.pow_succ_r'. 
  assert (x mod 256 < 256) by (apply N.mod_lt; lia). nia.
Qed.

Lemma le_decode_encode : forall n x, le_decode (le_encode n x) = x mod 256 ^ N.of_nat n.
Proof.
  induction n as [|n IH]; intros x; cbn [le_encode le_decode].
  - change (256 ^ N.of_nat 0) with 1. rewrite N.mod_1_r. reflexivity.
  - rewrite IH, Nat2N.inj_succ, N.pow_succ_r'.
    rewrite N.mod_mod by lia.
    rewrite N.mod_mul_r by (try apply N.pow_nonzero; lia). reflexivity.
Qed.

Lemma le_encode_firstn : forall n m x, (n <= m)%nat ->
  firstn n (le_encode m x) = le_encode n x.
Proof.
  induction n as [|n IH]; intros m x H; cbn [firstn le_encode]; auto.
  destruct m; [lia|]. cbn [firstn le_encode]. rewrite IH by lia. reflexivity.
Qed.

Lemma le_encode_skipn : forall n m x,
  skipn n (le_encode (n + m) x) = le_encode m (x / 256 ^ N.of_nat n).
Proof.
  induction n as [|n IH]; intros m x; cbn [Nat.add skipn le_encode].
  - change (256 ^ N.of_nat 0) with 1. rewrite N.div_1_r. reflexivity.
  - rewrite IH, N.div_div by (try apply N.pow_nonzero; lia).
    rewrite Nat2N.inj_succ, N.pow_succ_r'. reflexivity.
Qed.

Lemma concat_chunks_fuel : forall A n fuel (l : list A),
  (0 < n)%nat -> (length l <= fuel)%nat -> concat (chunks_fuel fuel n l) = l.
Proof.
  induction fuel as [|f IH]; intros l Hn Hl; cbn [chunks_fuel concat].
  - destruct l; cbn in Hl; [auto|lia].
  - destruct l as [|a l]; auto. cbn [concat]. rewrite IH; auto.
    + apply firstn_skipn.
    + rewrite skipn_length. cbn [length] in *. lia.
Qed.
Lemma concat_chunks : forall A n (l : list A), (0 < n)%nat -> concat (chunks n l) = l.
Proof. intros. apply concat_chunks_fuel; auto. Qed.

Lemma concat_map_map : forall A B (f : A -> B) ls,
  concat (map (map f) ls) = map f (concat ls).
Proof. intros. symmetry. apply concat_map. Qed.

Lemma map_seq_nth : forall A (l : list A) d,
  map (fun i => nth i l d) (seq 0 (length l)) = l.
Proof.
  intros A l d. apply nth_error_ext. intros i.
  destruct (Nat.lt_ge_cases i (length l)) as [H|H].
  - rewrite nth_error_map.
    rewrite (nth_error_nth' _ 0%nat) by (rewrite seq_length; lia).
    rewrite seq_nth by lia. cbn [option_map Nat.add].
    symmetry. apply nth_error_nth'. auto.
  - rewrite (proj2 (nth_error_None _ _)) by (rewrite map_length, seq_length; lia).
    symmetry. apply nth_error_None. lia.
Qed.

Lemma nth_error_seq : forall n s i, (i < n)%nat -> nth_error (seq s n) i = Some (s + i)%nat.
Proof.
  induction n; intros s i H; [lia|]. destruct i; cbn [seq nth_error].
  - f_equal. lia.
  - rewrite IHn by lia. f_equal. lia.
Qed.

Lemma at_or_ub_ok : forall A (l : list A) i a, at_or_ub l i = Ok a <-> nth_error l i = Some a.
Proof.
  intros. unfold at_or_ub. destruct (nth_error l i); split; congruence.
Qed.
Lemma at_or_ub_lt : forall A (l : list A) i, (i < length l)%nat -> exists a, at_or_ub l i = Ok a.
Proof.
  intros. unfold at_or_ub. destruct (nth_error l i) eqn:E; eauto.
  apply nth_error_None in E. lia.
Qed.

Lemma skipn_skipn' : forall A (l : list A) a b, skipn a (skipn b l) = skipn (b + a) l.
Proof.
  intros A l a b. revert l. induction b; intros l; auto.
  destruct l; cbn [skipn Nat.add]; auto. apply skipn_nil.
Qed.

Lemma firstn_app_exact : forall A (a b : list A) n, length a = n -> firstn n (a ++ b) = a.
Proof. intros A a b n <-. rewrite firstn_app, Nat.sub_diag, firstn_all, app_nil_r. reflexivity. Qed.
Lemma skipn_app_exact : forall A (a b : list A) n, length a = n -> skipn n (a ++ b) = b.
Proof. intros A a b n <-. rewrite skipn_app, Nat.sub_diag, skipn_all. reflexivity. Qed.

Lemma Forall2_cons_r_inv : forall A B (R : A -> B -> Prop) l b bs,
  Forall2 R l (b :: bs) -> exists a l', l = a :: l' /\ R a b /\ Forall2 R l' bs.
Proof. intros A B R l b bs H. inversion H; subst. eauto. Qed.
Lemma Forall2_cons_l_inv : forall A B (R : A -> B -> Prop) a l bs,
  Forall2 R (a :: l) bs -> exists b bs', bs = b :: bs' /\ R a b /\ Forall2 R l bs'.
Proof. intros A B R a l bs H. inversion H; subst. eauto. Qed.

Lemma nth_error_firstn_lt : forall A (l : list A) n i, (i < n)%nat ->
  nth_error (firstn n l) i = nth_error l i.
Proof.
  induction l as [|a l IH]; intros [|n] [|i] H; cbn; auto; try lia. apply IH. lia.
Qed.
Lemma nth_error_skipn' : forall A (l : list A) n i,
  nth_error (skipn n l) i = nth_error l (n + i).
Proof.
  induction l as [|a l IH]; intros [|n] i; cbn; auto. destruct i; reflexivity.
Qed.
