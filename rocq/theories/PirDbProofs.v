(** The inner product and the dense database. *)
From Coq Require Import List NArith ZArith Lia Bool ZifyBool ZifyNat ZifyN.
From Verif Require Import Base ListUtil ValueTypesModel ValueTypesProofs HwyProofs PirDbModel PirSpec.
Import ListNotations.
Ltac Zify.zify_post_hook ::= Z.div_mod_to_equations.
Open Scope N_scope.

(** * Buffers *)

Lemma load_ok : forall buf pos n, (pos + n <= length buf)%nat -> load buf pos n = Ok (firstn n (skipn pos buf)).
Proof. intros. unfold load. destruct (Nat.leb_spec (pos + n) (length buf)); [auto|lia]. Qed.
Lemma store_ok : forall buf pos data, (pos + length data <= length buf)%nat ->
  store buf pos data = Ok (firstn pos buf ++ data ++ skipn (pos + length data) buf).
Proof. intros. unfold store. destruct (Nat.leb_spec (pos + length data) (length buf)); [auto|lia]. Qed.

Lemma bxor_length : forall a b, length (bxor a b) = Nat.min (length a) (length b).
Proof. induction a as [|x a IH]; intros [|y b]; cbn [bxor length Nat.min]; auto. Qed.
Lemma bxor_nth : forall a b p, nth_error (bxor a b) p =
  match nth_error a p, nth_error b p with Some x, Some y => Some (N.lxor x y) | _, _ => None end.
Proof.
  induction a as [|x a IH]; intros [|y b] [|p]; cbn [bxor nth_error]; auto.
  destruct (nth_error a p); auto.
Qed.

(** The first [n] bytes of [b] XORed with those of [v]. *)
Definition xor_upto (v : bytes) (n : nat) (b : bytes) : bytes := bxor (firstn n b) (firstn n v) ++ skipn n b.

Lemma xor_upto_length : forall v n b, (n <= length v)%nat -> (n <= length b)%nat -> length (xor_upto v n b) = length b.
Proof. intros. unfold xor_upto. rewrite app_length, bxor_length, !firstn_length, skipn_length. lia. Qed.
Lemma xor_upto_0 : forall v b, xor_upto v 0 b = b.
Proof. reflexivity. Qed.
Lemma xor_upto_nth : forall v n b p, (n <= length v)%nat -> (n <= length b)%nat ->
  nth_error (xor_upto v n b) p =
  if Nat.ltb p n then match nth_error b p, nth_error v p with Some x, Some y => Some (N.lxor x y) | _, _ => None end
  else nth_error b p.
Proof.
  intros v n b p Hv Hb. unfold xor_upto.
  assert (HL : length (bxor (firstn n b) (firstn n v)) = n) by (rewrite bxor_length, !firstn_length; lia).
  destruct (Nat.ltb_spec p n).
  - rewrite nth_error_app1 by lia. rewrite bxor_nth, !nth_error_firstn_lt by lia. reflexivity.
  - rewrite nth_error_app2 by lia. rewrite HL, nth_error_skipn'. f_equal. lia.
Qed.
Lemma store_nth : forall (buf : bytes) (pos : nat) (data : bytes) p, (pos + length data <= length buf)%nat ->
  nth_error (firstn pos buf ++ data ++ skipn (pos + length data) buf) p =
  if Nat.ltb p pos then nth_error buf p
  else if Nat.ltb p (pos + length data) then nth_error data (p - pos) else nth_error buf p.
Proof.
  intros buf pos data p H.
  assert (HL : length (firstn pos buf) = pos) by (rewrite firstn_length; lia).
  destruct (Nat.ltb_spec p pos).
  - rewrite nth_error_app1 by lia. apply nth_error_firstn_lt. lia.
  - rewrite nth_error_app2 by lia. rewrite HL. destruct (Nat.ltb_spec p (pos + length data)).
    + rewrite nth_error_app1 by lia. reflexivity.
    + rewrite nth_error_app2 by lia. rewrite nth_error_skipn'. f_equal. lia.
Qed.

(** XORing the next [n] bytes. *)
Lemma xor_upto_step : forall v pos n b data, (pos + n <= length v)%nat -> (length v <= length b)%nat ->
  data = bxor (firstn n (skipn pos (xor_upto v pos b))) (firstn n (skipn pos v)) \/
  data = bxor (firstn n (skipn pos v)) (firstn n (skipn pos (xor_upto v pos b))) ->
  store (xor_upto v pos b) pos data = Ok (xor_upto v (pos + n) b).
Proof.
  intros v pos n b data H1 H2 HD.
  assert (HU : length (xor_upto v pos b) = length b) by (apply xor_upto_length; lia).
  assert (HL : length data = n).
  { destruct HD; subst data; rewrite bxor_length, !firstn_length, !skipn_length, HU; lia. }
  rewrite store_ok by (rewrite HU; lia). f_equal. apply nth_error_ext. intros p.
  rewrite store_nth by (rewrite HU; lia). rewrite xor_upto_nth by lia. rewrite xor_upto_nth by lia. rewrite HL.
  destruct (Nat.ltb_spec p pos).
  { destruct (Nat.ltb_spec p (pos + n)); [reflexivity|lia]. }
  destruct (Nat.ltb_spec p (pos + n)); [|reflexivity].
  assert (HX : nth_error data (p - pos) =
    match nth_error b p, nth_error v p with Some x, Some y => Some (N.lxor x y) | _, _ => None end).
  { destruct HD; subst data; rewrite bxor_nth, !nth_error_firstn_lt by lia; rewrite !nth_error_skipn';
    replace (pos + (p - pos))%nat with p by lia; rewrite xor_upto_nth by lia;
    (destruct (Nat.ltb_spec p pos); [lia|]);
    destruct (nth_error b p); destruct (nth_error v p); auto. rewrite N.lxor_comm. reflexivity. }
  exact HX.
Qed.

(** * The byte loop and the 128-bit loop *)

Lemma set_nth_nth : forall A (l : list A) i j a,
  nth_error (set_nth l i a) j = if Nat.eqb i j then match nth_error l j with Some _ => Some a | None => None end else nth_error l j.
Proof.
  induction l as [|x l IH]; intros [|i] [|j] a; cbn [set_nth nth_error Nat.eqb]; auto.
  destruct (Nat.eqb i j); reflexivity.
Qed.
Lemma set_nth_length : forall A (l : list A) i a, length (set_nth l i a) = length l.
Proof. induction l as [|x l IH]; intros [|i] a; cbn [set_nth length]; auto. Qed.

Lemma xor_bytes_ok : forall v b, (length v <= length b)%nat -> forall n i, (i + n = length v)%nat ->
  foldM (fun r i => y <- at_or_ub v i ;; x <- at_or_ub r i ;; Ok (set_nth r i (N.lxor x y))) (seq i n) (xor_upto v i b)
  = Ok (xor_upto v (length v) b).
Proof.
  intros v b HL n. induction n as [|n IH]; intros i Hi; cbn [seq foldM].
  - replace i with (length v) by lia. reflexivity.
  - destruct (nth_error v i) as [y|] eqn:Ey; [|apply nth_error_None in Ey; lia].
    destruct (nth_error b i) as [x|] eqn:Ex; [|apply nth_error_None in Ex; lia].
    unfold at_or_ub at 1. rewrite Ey. cbn [bind]. unfold at_or_ub at 1.
    rewrite xor_upto_nth by lia. rewrite Nat.ltb_irrefl, Ex. cbn [bind].
    replace (set_nth (xor_upto v i b) i (N.lxor x y)) with (xor_upto v (S i) b); [apply IH; lia|].
    apply nth_error_ext. intros p. rewrite set_nth_nth, !xor_upto_nth by lia.
    destruct (Nat.eqb_spec i p) as [->|].
    + rewrite Nat.ltb_irrefl, Ex, Ey. destruct (Nat.ltb_spec p (S p)); [reflexivity|lia].
    + destruct (Nat.ltb_spec p (S i)); destruct (Nat.ltb_spec p i); try lia; reflexivity.
Qed.

Lemma le_decode_bxor : forall a b, length a = length b -> is_bytes a -> is_bytes b ->
  le_decode (bxor a b) = N.lxor (le_decode a) (le_decode b).
Proof.
  intros a. induction a as [|x a IH]; intros [|y b] HL Ha Hb; cbn in HL; try discriminate; [reflexivity|].
  inversion Ha; inversion Hb; subst. cbn [bxor le_decode]. rewrite IH by (auto; lia).
  assert (HX : N.lxor x y < 256).
  { replace 256 with (2 ^ 8) by reflexivity. apply lxor_bound; assumption. }
  rewrite !N.mod_small by assumption.
  assert (HS : forall u z, u < 256 -> u + 256 * z = N.lxor u (N.shiftl z 8)).
  { intros u z Hu. rewrite N.shiftl_mul_pow2. replace (2 ^ 8) with 256 by reflexivity.
    rewrite (N.mul_comm z 256). rewrite N.add_nocarry_lxor; [reflexivity|].
    apply N.bits_inj_0. intros k. rewrite N.land_spec. destruct (N.lt_ge_cases k 8).
    - replace (256 * z) with (N.shiftl z 8) by (rewrite N.shiftl_mul_pow2; replace (2 ^ 8) with 256 by reflexivity; lia).
      rewrite N.shiftl_spec_low by assumption. apply andb_false_r.
    - rewrite (N.bits_above_log2 u k); [reflexivity|].
      destruct (N.eq_dec u 0) as [->|]; [cbn; lia|]. apply N.log2_lt_pow2; [lia|].
      apply N.lt_le_trans with (2 ^ 8); [exact Hu|]. apply N.pow_le_mono_r; lia. }
  rewrite !HS by assumption. rewrite N.shiftl_lxor. rewrite !N.lxor_assoc. f_equal.
  rewrite <- !N.lxor_assoc. f_equal. apply N.lxor_comm.
Qed.
Lemma le_encode_decode : forall b, is_bytes b -> le_encode (length b) (le_decode b) = b.
Proof.
  induction b as [|x b IH]; intros H; [reflexivity|]. inversion H; subst. cbn [length le_encode le_decode].
  f_equal; [lia|]. transitivity (le_encode (length b) (le_decode b)); [|auto]. f_equal. rewrite (N.mod_small x) by assumption.
  rewrite (N.mul_comm 256), N.div_add by discriminate. rewrite N.div_small by assumption. reflexivity.
Qed.

Lemma is_bytes_firstn : forall n b, is_bytes b -> is_bytes (firstn n b).
Proof. unfold is_bytes. induction n; intros b H; cbn [firstn]; [constructor|]. destruct b; [constructor|]. inversion H; subst. constructor; auto. Qed.
Lemma is_bytes_skipn : forall n b, is_bytes b -> is_bytes (skipn n b).
Proof. unfold is_bytes. induction n; intros b H; cbn [skipn]; [auto|]. destruct b; [constructor|]. inversion H; subst. auto. Qed.
Lemma is_bytes_app : forall a b, is_bytes a -> is_bytes b -> is_bytes (a ++ b).
Proof. intros. apply Forall_app. auto. Qed.
Lemma is_bytes_bxor : forall a b, is_bytes a -> is_bytes b -> is_bytes (bxor a b).
Proof.
  unfold is_bytes. induction a as [|x a IH]; intros [|y b] Ha Hb; cbn [bxor]; constructor; inversion Ha; inversion Hb; subst; auto.
  change 256 with (2 ^ 8). apply lxor_bound; assumption.
Qed.
Lemma is_bytes_xor_upto : forall v n b, is_bytes v -> is_bytes b -> is_bytes (xor_upto v n b).
Proof. intros. unfold xor_upto. auto using is_bytes_app, is_bytes_bxor, is_bytes_firstn, is_bytes_skipn. Qed.

Lemma le_xor : forall a b n, length a = n -> length b = n -> is_bytes a -> is_bytes b ->
  le_encode n (N.lxor (le_decode a) (le_decode b)) = bxor a b.
Proof.
  intros a b n Ha Hb HA HB. rewrite <- le_decode_bxor by (auto; lia).
  replace n with (length (bxor a b)) by (rewrite bxor_length; lia). apply le_encode_decode. apply is_bytes_bxor; assumption.
Qed.

Lemma xor_blocks_ok : forall v b, (length v <= length b)%nat -> is_bytes v -> is_bytes b ->
  forall n i, ((i + n) * 16 <= length v)%nat ->
  foldM (fun r i => s <- load v (i * 16) 16 ;; x <- load r (i * 16) 16 ;;
           store r (i * 16) (le_encode 16 (N.lxor (le_decode x) (le_decode s)))) (seq i n) (xor_upto v (i * 16) b)
  = Ok (xor_upto v ((i + n) * 16) b).
Proof.
  intros v b HL Hv Hb n. induction n as [|n IH]; intros i Hi; cbn [seq foldM].
  - rewrite Nat.add_0_r. reflexivity.
  - assert (HU : length (xor_upto v (i * 16) b) = length b) by (apply xor_upto_length; lia).
    rewrite load_ok by lia. cbn [bind]. rewrite load_ok by (rewrite HU; lia). cbn [bind].
    rewrite le_xor; try (rewrite firstn_length, skipn_length; try rewrite HU; lia).
    2:{ auto using is_bytes_firstn, is_bytes_skipn, is_bytes_xor_upto. }
    2:{ auto using is_bytes_firstn, is_bytes_skipn. }
    rewrite (xor_upto_step v (i * 16) 16 b); [|lia|lia|left; reflexivity]. cbn [bind].
    replace (i * 16 + 16)%nat with (S i * 16)%nat by lia. rewrite IH by lia. f_equal. f_equal. lia.
Qed.

Theorem xor_string_ok : forall value raddr b, (length (v_data value) <= length b)%nat ->
  is_bytes (v_data value) -> is_bytes b -> N.of_nat (length (v_data value)) < 2 ^ 31 ->
  xor_string_no_hwy value raddr b = Ok (xor_upto (v_data value) (length (v_data value)) b).
Proof.
  intros value raddr b HL Hv Hb HS. unfold xor_string_no_hwy. cbn zeta.
  destruct (N.leb_spec (2 ^ 31) (N.of_nat (length (v_data value)))); [lia|].
  unfold xor_bytes_from.
  destruct (negb (raddr mod 16 =? 0) || negb (v_addr value mod 16 =? 0)).
  - apply (xor_bytes_ok _ b HL _ 0%nat). lia.
  - pose proof (Nat.div_mod (length (v_data value)) 16 ltac:(discriminate)).
    pose proof (Nat.mod_upper_bound (length (v_data value)) 16 ltac:(discriminate)).
    pose proof (xor_blocks_ok (v_data value) b HL Hv Hb (length (v_data value) / 16) 0) as HX.
    rewrite Nat.mul_0_l, xor_upto_0, Nat.add_0_l in HX. rewrite HX by lia. cbn [bind].
    apply xor_bytes_ok; [assumption|lia].
Qed.

(** * Updating several buffers *)

Definition mapi {A B} (h : nat -> A -> B) (l : list A) : list B :=
  map (fun kb => h (fst kb) (snd kb)) (combine (seq 0 (length l)) l).
Lemma combine_seq_nth : forall A (l : list A) s k,
  nth_error (combine (seq s (length l)) l) k = match nth_error l k with Some b => Some ((s + k)%nat, b) | None => None end.
Proof.
  induction l as [|a l IH]; intros s [|k]; cbn [length seq combine nth_error]; auto.
  - rewrite Nat.add_0_r. reflexivity.
  - rewrite IH. destruct (nth_error l k); auto. do 2 f_equal. lia.
Qed.
Lemma mapi_nth : forall A B (h : nat -> A -> B) l k,
  nth_error (mapi h l) k = match nth_error l k with Some b => Some (h k b) | None => None end.
Proof.
  intros. unfold mapi. rewrite nth_error_map, combine_seq_nth. destruct (nth_error l k); reflexivity.
Qed.
Lemma mapi_length : forall A B (h : nat -> A -> B) l, length (mapi h l) = length l.
Proof. intros. unfold mapi. rewrite map_length, combine_length, seq_length. lia. Qed.
Lemma mapi_ext : forall A B (h g : nat -> A -> B) l, (forall k b, nth_error l k = Some b -> h k b = g k b) -> mapi h l = mapi g l.
Proof.
  intros A B h g l H. apply nth_error_ext. intros k. rewrite !mapi_nth. destruct (nth_error l k) eqn:E; [|reflexivity].
  f_equal. auto.
Qed.
Lemma mapi_id : forall A (l : list A), mapi (fun _ b => b) l = l.
Proof. intros. apply nth_error_ext. intros k. rewrite mapi_nth. destruct (nth_error l k); reflexivity. Qed.

(** One buffer after the other is replaced; [h1] are the buffers before, [h2] after. *)
Lemma fold_mapi : forall (sel : nat -> bool) (g : nat -> bytes -> res bytes) (h2 : nat -> bytes -> bytes) bufs ks h1,
  NoDup ks -> (forall k, In k ks -> (k < length bufs)%nat) ->
  (forall k b, In k ks -> sel k = true -> nth_error bufs k = Some b -> g k (h1 k b) = Ok (h2 k b)) ->
  foldM (fun bufs k => if negb (sel k) then Ok bufs
                       else buf <- at_or_ub bufs k ;; buf' <- g k buf ;; Ok (set_nth bufs k buf')) ks (mapi h1 bufs)
  = Ok (mapi (fun k b => if sel k && existsb (Nat.eqb k) ks then h2 k b else h1 k b) bufs).
Proof.
  intros sel g h2 bufs ks. induction ks as [|k ks IH]; intros h1 ND HB HG; cbn [foldM].
  - f_equal. apply mapi_ext. intros. cbn [existsb]. rewrite andb_false_r. reflexivity.
  - inversion ND; subst.
    assert (Hin : forall k', existsb (Nat.eqb k') ks = true -> In k' ks).
    { intros k' H. apply existsb_exists in H as (x & Hx & E). apply Nat.eqb_eq in E. subst. assumption. }
    destruct (sel k) eqn:Es; cbn [negb].
    + destruct (nth_error bufs k) as [b|] eqn:Eb.
      2:{ apply nth_error_None in Eb. specialize (HB k (or_introl eq_refl)). lia. }
      unfold at_or_ub. rewrite mapi_nth, Eb. cbn [bind]. rewrite (HG k b) by (cbn; auto). cbn [bind].
      replace (set_nth (mapi h1 bufs) k (h2 k b)) with (mapi (fun k' b' => if Nat.eqb k' k then h2 k' b' else h1 k' b') bufs).
      * rewrite IH; auto.
        -- f_equal. apply mapi_ext. intros k' b' E'. cbn [existsb].
           destruct (Nat.eqb_spec k' k) as [->|]; cbn [orb].
           ++ rewrite Es. destruct (existsb (Nat.eqb k) ks); reflexivity.
           ++ destruct (sel k' && existsb (Nat.eqb k') ks); reflexivity.
        -- intros. apply HB. right. assumption.
        -- intros k' b' Hk Hs Hn. destruct (Nat.eqb_spec k' k) as [->|]; [contradiction|]. apply HG; cbn; auto.
      * apply nth_error_ext. intros p. rewrite set_nth_nth, !mapi_nth.
        destruct (Nat.eqb_spec k p) as [->|].
        -- rewrite Eb, Nat.eqb_refl. reflexivity.
        -- destruct (Nat.eqb_spec p k); [congruence|]. reflexivity.
    + cbn [bind]. rewrite IH; auto.
      * f_equal. apply mapi_ext. intros k' b' E'. cbn [existsb]. destruct (Nat.eqb_spec k' k) as [->|]; [|reflexivity].
        rewrite Es. reflexivity.
      * intros. apply HB. right. assumption.
      * intros k' b' Hk Hs Hn. apply HG; cbn; auto.
Qed.

Lemma foldM_ext_in : forall A S (f g : S -> A -> res S) l s, (forall s a, In a l -> f s a = g s a) -> foldM f l s = foldM g l s.
Proof.
  intros A S f g l. induction l as [|a l IH]; intros s H; cbn [foldM]; [reflexivity|].
  rewrite H by (left; reflexivity). destruct (g s a); cbn [bind]; auto. apply IH. intros. apply H. right. assumption.
Qed.

(** * Vectors *)
Section Vectors.
Variables (haddr : nat -> N) (value : view) (ks : list nat) (bufs : list bytes).
Let v := v_data value.
Hypothesis ND : NoDup ks.
Hypothesis HK : forall k, In k ks -> (k < length bufs)%nat.
Hypothesis HB : forall k b, nth_error bufs k = Some b -> (length v <= length b)%nat.
Definition state (p : nat) : list bytes := mapi (fun k b => if existsb (Nat.eqb k) ks then xor_upto v p b else b) bufs.

Lemma xor_vector_ok : forall lanes pos, (0 < lanes)%nat -> (pos + lanes <= length v)%nat ->
  (v_addr value + N.of_nat pos) mod N.of_nat lanes = 0 ->
  (forall k, In k ks -> (haddr k + N.of_nat pos) mod N.of_nat lanes = 0) ->
  xor_vector haddr lanes value pos ks (state pos) = Ok (state (pos + lanes)).
Proof using ND HK HB.
  intros lanes pos Hl Hp Ha Hh. unfold xor_vector. unfold vload at 1. rewrite Ha. cbn [N.eqb].
  fold v. rewrite load_ok by exact Hp. cbn [bind]. unfold state.
  set (vec := firstn lanes (skipn pos v)).
  rewrite (foldM_ext_in _ _ _ (fun bufs k => if negb true then Ok bufs
     else buf <- at_or_ub bufs k ;;
          buf' <- (x <- vload lanes (haddr k) buf pos ;; vstore lanes (haddr k) buf pos (bxor vec x)) ;; Ok (set_nth bufs k buf'))).
  2:{ intros s a _. cbn [negb]. destruct (at_or_ub s a); cbn [bind]; auto. destruct (vload lanes (haddr a) a0 pos); reflexivity. }
  rewrite (fold_mapi (fun _ => true) _ (fun _ b => xor_upto v (pos + lanes) b) bufs ks).
  - f_equal. apply mapi_ext. intros k b _. cbn [andb]. destruct (existsb (Nat.eqb k) ks); reflexivity.
  - exact ND.
  - exact HK.
  - intros k b Hin _ Hb.
    assert (E : existsb (Nat.eqb k) ks = true).
    { apply existsb_exists. exists k. split; [assumption|apply Nat.eqb_refl]. }
    rewrite E. pose proof (HB k b Hb).
    assert (HU : length (xor_upto v pos b) = length b) by (apply xor_upto_length; lia).
    unfold vload. rewrite (Hh k Hin). cbn [N.eqb]. rewrite load_ok by (rewrite HU; lia). cbn [bind].
    unfold vstore. rewrite (Hh k Hin). cbn [N.eqb]. unfold vec. apply xor_upto_step; [lia|lia|right; reflexivity].
Qed.

Lemma mod_pow_half : forall x m, x mod 2 ^ N.of_nat (S m) = 0 -> x mod 2 ^ N.of_nat m = 0.
Proof.
  intros x m H. rewrite Nat2N.inj_succ, N.pow_succ_r' in H.
  pose proof (N.pow_nonzero 2 (N.of_nat m) ltac:(discriminate)).
  apply N.mod_divide in H; [|lia]. apply N.mod_divide; [lia|]. destruct H as [z ->]. exists (z * 2). lia.
Qed.
Lemma mod_add_0 : forall a b m, m <> 0 -> a mod m = 0 -> b mod m = 0 -> (a + b) mod m = 0.
Proof. intros. rewrite N.add_mod, H0, H1 by assumption. apply N.mod_0_l. assumption. Qed.

Lemma of_nat_pow : forall m, N.of_nat (2 ^ m) = 2 ^ N.of_nat m.
Proof. intros. rewrite Nat2N.inj_pow. reflexivity. Qed.

Lemma xor_full_ok : forall m fuel pos,
  (v_addr value) mod 2 ^ N.of_nat m = 0 -> (forall k, In k ks -> haddr k mod 2 ^ N.of_nat m = 0) ->
  N.of_nat pos mod 2 ^ N.of_nat m = 0 -> (pos <= length v)%nat -> (length v - pos <= fuel)%nat ->
  exists pos', xor_full haddr fuel (2 ^ m) value pos ks (state pos) = Ok (pos', state pos') /\
    N.of_nat pos' mod 2 ^ N.of_nat m = 0 /\ (pos' <= length v)%nat /\ (length v - pos' < 2 ^ m)%nat.
Proof using ND HK HB.
  intros m. assert (HP : (0 < 2 ^ m)%nat) by (apply Nat.neq_0_lt_0, Nat.pow_nonzero; lia).
  assert (HN : 2 ^ N.of_nat m <> 0) by (apply N.pow_nonzero; discriminate).
  induction fuel as [|fuel IH]; intros pos Ha Hh Hp Hle Hf; cbn [xor_full].
  - exists pos. repeat split; auto. lia.
  - fold v. destruct (Nat.leb_spec (pos + 2 ^ m) (length v)).
    + rewrite xor_vector_ok; auto.
      * cbn [bind]. apply IH; auto; try lia.
        rewrite Nat2N.inj_add, of_nat_pow. apply mod_add_0; auto. apply N.mod_same. assumption.
      * rewrite of_nat_pow. apply mod_add_0; auto.
      * intros k Hk. rewrite of_nat_pow. apply mod_add_0; auto.
    + exists pos. repeat split; auto. lia.
Qed.

Lemma land_pow2 : forall r m, (N.land r (2 ^ m) =? 0) = negb (N.testbit r m).
Proof. intros. rewrite <- (land_bit r m). rewrite N.shiftl_1_l. reflexivity. Qed.

Lemma mod_half : forall r m, r mod 2 ^ N.succ m = (if N.testbit r m then 2 ^ m else 0) + r mod 2 ^ m.
Proof.
  intros r m. rewrite N.pow_succ_r'. rewrite (N.mul_comm 2).
  rewrite N.mod_mul_r by (try apply N.pow_nonzero; discriminate).
  rewrite <- N.testbit_spec'. destruct (N.testbit r m); cbn [N.b2n]; lia.
Qed.

Lemma nat_aux : forall a b x L, N.of_nat a + (N.of_nat b + x) = N.of_nat L ->
  (a + b <= L)%nat /\ N.of_nat (a + b) + x = N.of_nat L.
Proof. clear. intros. lia. Qed.
Lemma pow_gt_1 : forall m, (1 < 2 ^ S m)%nat.
Proof. clear. intros. rewrite Nat.pow_succ_r'. pose proof (Nat.pow_nonzero 2 m ltac:(discriminate)). lia. Qed.

Lemma xor_partial_ok : forall m depth pos remaining, (S m <= depth)%nat ->
  (v_addr value) mod 2 ^ N.of_nat (S m) = 0 -> (forall k, In k ks -> haddr k mod 2 ^ N.of_nat (S m) = 0) ->
  N.of_nat pos mod 2 ^ N.of_nat (S m) = 0 ->
  N.of_nat pos + N.of_nat remaining mod 2 ^ N.of_nat (S m) = N.of_nat (length v) ->
  xor_partial haddr depth (2 ^ S m) value pos remaining ks (state pos) = Ok (state (length v)).
Proof using ND HK HB.
  induction m as [|m IH]; intros depth pos remaining Hd Ha Hh Hp Hr;
    (destruct depth as [|depth]; [lia|]); cbn [xor_partial].
  - replace (2 ^ 1 / 2)%nat with 1%nat by reflexivity. cbn [Nat.ltb Nat.leb].
    change (N.of_nat 1) with (2 ^ 0) in *. rewrite land_pow2.
    change (2 ^ 0) with 1 in *. change (2 ^ 1) with 2 in *.
    assert (HB0 : N.testbit (N.of_nat remaining) 0 = (N.of_nat remaining mod 2 =? 1)).
    { rewrite <- N.bit0_mod. destruct (N.testbit (N.of_nat remaining) 0); reflexivity. }
    rewrite HB0. destruct (N.eqb_spec (N.of_nat remaining mod 2) 1); cbn [negb].
    + rewrite xor_vector_ok; auto; try lia.
      cbn [bind]. do 2 f_equal. lia.
    + cbn [bind]. do 2 f_equal. lia.
  - assert (HN : 2 ^ N.of_nat (S m) <> 0) by (apply N.pow_nonzero; discriminate).
    replace (2 ^ S (S m) / 2)%nat with (2 ^ S m)%nat by (rewrite (Nat.pow_succ_r' 2 (S m)), Nat.mul_comm, Nat.div_mul; lia).
    rewrite of_nat_pow, land_pow2.
    pose proof (pow_gt_1 m) as H1.
    rewrite (proj2 (Nat.ltb_lt _ _) H1).
    rewrite (Nat2N.inj_succ (S m)), mod_half in Hr.
    pose proof (mod_pow_half _ _ Ha) as Ha'. pose proof (mod_pow_half _ _ Hp) as Hp'.
    assert (Hh' : forall k, In k ks -> haddr k mod 2 ^ N.of_nat (S m) = 0) by (intros; apply mod_pow_half; auto).
    destruct (N.testbit (N.of_nat remaining) (N.of_nat (S m))); cbn [negb].
    + rewrite <- of_nat_pow in Hr at 1. apply nat_aux in Hr as [Hr1 Hr2].
      rewrite xor_vector_ok.
      * cbn [bind]. apply IH; auto.
        -- apply le_S_n. exact Hd.
        -- rewrite Nat2N.inj_add, of_nat_pow. apply mod_add_0; auto. apply N.mod_same. assumption.
      * apply Nat.lt_trans with 1%nat; [apply Nat.lt_0_1|exact H1].
      * exact Hr1.
      * rewrite of_nat_pow. apply mod_add_0; auto.
      * intros k Hk. rewrite of_nat_pow. apply mod_add_0; auto.
    + cbn [bind]. rewrite N.add_0_l in Hr. apply IH; auto. apply le_S_n. exact Hd.
Qed.
End Vectors.

(** * The loops over the values *)
Lemma existsb_eqb_In : forall k l, existsb (Nat.eqb k) l = true <-> In k l.
Proof.
  intros. rewrite existsb_exists. split.
  - intros (x & Hx & E). apply Nat.eqb_eq in E. subst. assumption.
  - intros H. exists k. split; [assumption|apply Nat.eqb_refl].
Qed.
Lemma existsb_eqb_false : forall k l, existsb (Nat.eqb k) l = false <-> ~ In k l.
Proof. intros. rewrite <- existsb_eqb_In. destruct (existsb (Nat.eqb k) l); split; congruence. Qed.
Lemma existsb_seq : forall k n, existsb (Nat.eqb k) (seq 0 n) = Nat.ltb k n.
Proof.
  intros. apply eq_iff_eq_true. rewrite existsb_eqb_In, in_seq, Nat.ltb_lt. lia.
Qed.

Lemma foldM_map_loop : forall A (F : list bytes -> nat -> res (list bytes)) (G : nat -> A -> bytes -> bytes)
    (P : bytes -> Prop) (sels : list A) n i h,
  (forall k h, (i <= k < i + n)%nat -> (forall s, In s sels -> P (h s)) ->
     F (map h sels) k = Ok (map (fun s => G k s (h s)) sels)) ->
  (forall k s b, P b -> P (G k s b)) -> (forall s, In s sels -> P (h s)) ->
  foldM F (seq i n) (map h sels) = Ok (map (fun s => fold_left (fun b k => G k s b) (seq i n) (h s)) sels).
Proof.
  intros A F G P sels n. induction n as [|n IH]; intros i h HF HP Hh; cbn [seq foldM fold_left]; [reflexivity|].
  rewrite HF by (auto; lia). cbn [bind]. rewrite IH; auto. intros. apply HF; auto. lia.
Qed.

Section Products.
Variable t : target.
Variables (values : list view) (selections : list (list N)) (nb max : nat).
Hypothesis HT : target_ok t.
Hypothesis Hnb : Forall (fun s => length s = nb) selections.
Hypothesis Hvals : Forall (fun v => (length (v_data v) <= max)%nat /\ is_bytes (v_data v) /\
  N.of_nat (length (v_data v)) < 2 ^ 31) values.

Definition bit_of (i j : nat) (s : list N) : bool := N.testbit (nth i s 0) (N.of_nat j).
Definition xor_in (v b : bytes) : bytes := xor_upto v (length v) b.
Definition fits (b : bytes) : Prop := length b = max /\ is_bytes b.

Lemma selection_bit_ok : forall k i j s, nth_error selections k = Some s -> (i < nb)%nat ->
  selection_bit selections k i j = Ok (bit_of i j s).
Proof using Hnb.
  intros k i j s Hs Hi. unfold selection_bit, at_or_ub. rewrite Hs. cbn [bind].
  rewrite Forall_forall in Hnb. specialize (Hnb s (nth_error_In _ _ Hs)).
  destruct (nth_error s i) as [b|] eqn:Eb; [|apply nth_error_None in Eb; lia]. cbn [bind].
  rewrite land_bit, negb_involutive. unfold bit_of. erewrite nth_error_nth by eassumption. reflexivity.
Qed.

(** What one value contributes. *)
Definition after_value (i j : nat) (v : bytes) (h : list N -> bytes) (s : list N) : bytes :=
  if bit_of i j s then xor_in v (h s) else h s.
Definition body_ok (body : nat -> view -> list bytes -> res (list bytes)) (i : nat) : Prop :=
  forall j value h, (length (v_data value) <= max)%nat -> is_bytes (v_data value) ->
    N.of_nat (length (v_data value)) < 2 ^ 31 -> (forall s, In s selections -> fits (h s)) ->
    body j value (map h selections) = Ok (map (after_value i j (v_data value) h) selections).

Definition selk (i j k : nat) : bool := match nth_error selections k with Some s => bit_of i j s | None => false end.

Lemma no_hwy_updates : forall i j value h addr, (i < nb)%nat ->
  (length (v_data value) <= max)%nat -> is_bytes (v_data value) -> N.of_nat (length (v_data value)) < 2 ^ 31 ->
  (forall s, In s selections -> fits (h s)) ->
  foldM (fun bufs k => bit <- selection_bit selections k i j ;;
           if negb bit then Ok bufs
           else buf <- at_or_ub bufs k ;;
                buf' <- xor_string_no_hwy value (addr k) buf ;;
                Ok (set_nth bufs k buf'))
        (seq 0 (length selections)) (map h selections)
  = Ok (map (after_value i j (v_data value) h) selections).
Proof using Hnb.
  intros i j value h addr Hi H1 H2 H3 Hh.
  rewrite (foldM_ext_in _ _ _ (fun bufs k => if negb (selk i j k) then Ok bufs
     else buf <- at_or_ub bufs k ;; buf' <- xor_string_no_hwy value (addr k) buf ;; Ok (set_nth bufs k buf'))).
  2:{ intros s k Hk. apply in_seq in Hk. unfold selk. destruct (nth_error selections k) as [x|] eqn:E.
      - rewrite (selection_bit_ok k i j x E Hi). reflexivity.
      - apply nth_error_None in E. lia. }
  rewrite <- (mapi_id _ (map h selections)) at 1.
  rewrite (fold_mapi (selk i j) (fun k b => xor_string_no_hwy value (addr k) b) (fun _ b => xor_in (v_data value) b)).
  - f_equal. apply nth_error_ext. intros k. rewrite mapi_nth, !nth_error_map, existsb_seq.
    unfold selk. destruct (nth_error selections k) as [s|] eqn:E; cbn [option_map]; [|reflexivity].
    assert (k < length selections)%nat by (apply nth_error_Some; congruence).
    destruct (Nat.ltb_spec k (length selections)); [|lia]. rewrite andb_true_r. reflexivity.
  - apply seq_NoDup.
  - intros k Hk. apply in_seq in Hk. rewrite map_length. lia.
  - intros k b _ _ Hb. rewrite nth_error_map in Hb. destruct (nth_error selections k) as [s|] eqn:E; [|discriminate].
    inversion Hb; subst b. destruct (Hh s (nth_error_In _ _ E)) as [Hl Hy].
    apply xor_string_ok; auto. lia.
Qed.

Lemma hwy_value_ok : forall i, (i < nb)%nat -> (4 <= t_log_lanes t)%nat ->
  body_ok (fun j value bufs => hwy_value t selections i j value bufs) i.
Proof using HT Hnb.
  intros i Hi Hlog j value h H1 H2 H3 Hh. unfold hwy_value. cbn zeta.
  destruct (N.eqb_spec (v_addr value mod t_align t) 0) as [Ea|Ea]; cbn [negb].
  - (* aligned: collect the buffers, then use vectors *)
    assert (HK : forall l ks bufs, (forall k, In k l -> (k < length selections)%nat) ->
      foldM (fun (st : list nat * list bytes) k => let '(ks, bufs) := st in
               bit <- selection_bit selections k i j ;;
               if negb bit then Ok (ks, bufs) else Ok (ks ++ [k], bufs)) l (ks, bufs)
      = Ok (ks ++ filter (selk i j) l, bufs)).
    { induction l as [|k l IH]; intros ks bufs Hl; cbn [foldM filter]; [rewrite app_nil_r; reflexivity|].
      destruct (nth_error selections k) as [s|] eqn:E.
      2:{ apply nth_error_None in E. specialize (Hl k (or_introl eq_refl)). lia. }
      rewrite (selection_bit_ok k i j s E Hi). cbn [bind].
      replace (selk i j k) with (bit_of i j s) by (unfold selk; rewrite E; reflexivity).
      destruct (bit_of i j s); cbn [negb bind]; rewrite IH by (intros; apply Hl; right; assumption); [|reflexivity].
      rewrite <- app_assoc. reflexivity. }
    rewrite HK by (intros k Hk; apply in_seq in Hk; lia). cbn [bind app].
    set (ks := filter (selk i j) (seq 0 (length selections))).
    assert (HE : forall k s, nth_error selections k = Some s -> existsb (Nat.eqb k) ks = bit_of i j s).
    { intros k s E. apply eq_iff_eq_true. rewrite existsb_eqb_In. unfold ks. rewrite filter_In, in_seq.
      unfold selk. rewrite E. assert (k < length selections)%nat by (apply nth_error_Some; congruence). intuition lia. }
    assert (HF : mapi (fun k b => if existsb (Nat.eqb k) ks then xor_upto (v_data value) (length (v_data value)) b else b)
                   (map h selections) = map (after_value i j (v_data value) h) selections).
    { apply nth_error_ext. intros k. rewrite mapi_nth, !nth_error_map.
      destruct (nth_error selections k) as [s|] eqn:E; cbn [option_map]; [|reflexivity].
      rewrite (HE k s E). reflexivity. }
    assert (ND : NoDup ks) by (apply NoDup_filter, seq_NoDup).
    assert (HKs : forall k, In k ks -> (k < length (map h selections))%nat).
    { intros k Hk. apply filter_In in Hk as [Hk _]. apply in_seq in Hk. rewrite map_length. lia. }
    assert (HBs : forall k b, nth_error (map h selections) k = Some b -> (length (v_data value) <= length b)%nat).
    { intros k b Hb. rewrite nth_error_map in Hb. destruct (nth_error selections k) as [s|] eqn:E; [|discriminate].
      inversion Hb; subst b. destruct (Hh s (nth_error_In _ _ E)) as [Hl _]. lia. }
    assert (HD : forall x, x mod t_align t = 0 -> x mod 2 ^ N.of_nat (t_log_lanes t) = 0).
    { intros x Hx. pose proof (tok_pos t HT). pose proof (tok_align t HT) as HA.
      assert (2 ^ N.of_nat (t_log_lanes t) <> 0) by (apply N.pow_nonzero; discriminate).
      apply N.mod_divide in Hx; [|lia]. apply N.mod_divide in HA; [|assumption]. apply N.mod_divide; [assumption|].
      eapply N.divide_trans; eassumption. }
    destruct ks as [|k0 ks'] eqn:Eks.
    { rewrite <- HF. cbn [existsb]. rewrite mapi_id. reflexivity. }
    rewrite <- Eks in *. clear Eks k0 ks'.
    assert (Hstart : map h selections = state value ks (map h selections) 0).
    { unfold state. symmetry. etransitivity; [|apply mapi_id]. apply mapi_ext. intros k b _.
      rewrite xor_upto_0. destruct (existsb (Nat.eqb k) ks); reflexivity. }
    destruct (xor_full_ok (t_haddr t) value ks (map h selections) ND HKs HBs (t_log_lanes t) (length (v_data value)) 0)
      as (pos & E & Hp1 & Hp2 & Hp3); auto.
    { intros k _. apply HD. apply (tok_haddr t HT). }
    { lia. }
    { lia. }
    rewrite <- Hstart in E. rewrite E. cbn [bind].
    destruct (Nat.ltb_spec pos (length (v_data value))).
    + destruct (t_log_lanes t) as [|m] eqn:Em; [lia|]. rewrite <- HF.
      apply (xor_partial_ok (t_haddr t) value ks (map h selections) ND HKs HBs m).
      * rewrite <- Em. apply (tok_depth t HT).
      * apply HD. assumption.
      * intros k _. apply HD. apply (tok_haddr t HT).
      * assumption.
      * rewrite N.mod_small; [clear - Hp2; lia|]. rewrite <- of_nat_pow. clear - Hp3. lia.
    + replace pos with (length (v_data value)) in * by lia. rewrite <- HF. reflexivity.
  - (* not aligned *)
    assert (HK : forall l bufs bufs', foldM (fun bufs k => bit <- selection_bit selections k i j ;;
           if negb bit then Ok bufs
           else buf <- at_or_ub bufs k ;;
                buf' <- xor_string_no_hwy value (t_haddr t k) buf ;;
                Ok (set_nth bufs k buf')) l bufs = Ok bufs' ->
      foldM (fun (st : list nat * list bytes) k => let '(ks, bufs) := st in
               bit <- selection_bit selections k i j ;;
               if negb bit then Ok (ks, bufs) else
               buf <- at_or_ub bufs k ;;
               buf' <- xor_string_no_hwy value (t_haddr t k) buf ;;
               Ok (ks, set_nth bufs k buf')) l ([], bufs) = Ok ([], bufs')).
    { induction l as [|k l IH]; intros bufs bufs' H; cbn [foldM] in *; [inversion H; reflexivity|].
      destruct (selection_bit selections k i j); cbn [bind] in *; try discriminate.
      destruct (negb a); cbn [bind] in *; [auto|].
      destruct (at_or_ub bufs k); cbn [bind] in *; try discriminate.
      destruct (xor_string_no_hwy value (t_haddr t k) a0); cbn [bind] in *; try discriminate. auto. }
    erewrite HK; [|apply no_hwy_updates; auto]. reflexivity.
Qed.

Lemma xor_in_fits : forall v b, (length v <= max)%nat -> is_bytes v -> fits b -> fits (xor_in v b).
Proof using.
  clear HT Hnb Hvals. intros v b H1 H2 [H3 H4]. split; [unfold xor_in; rewrite xor_upto_length; lia|].
  apply is_bytes_xor_upto; assumption.
Qed.

(** Block [i] adds the values from index [base] on. *)
Definition add_bit (i base : nat) (s : list N) (b : bytes) (j : nat) : bytes :=
  match nth_error values (base + j) with
  | Some v => if bit_of i j s then xor_in (v_data v) b else b
  | None => b
  end.
Definition add_block (i base : nat) (s : list N) (b : bytes) : bytes := fold_left (add_bit i base s) (seq 0 128) b.

Lemma add_bit_fits : forall i base s b j, fits b -> fits (add_bit i base s b j).
Proof using Hvals.
  intros i base s b j Hb. unfold add_bit. destruct (nth_error values (base + j)) as [v|] eqn:E; [|assumption].
  destruct (bit_of i j s); [|assumption]. rewrite Forall_forall in Hvals.
  destruct (Hvals v (nth_error_In _ _ E)) as (H1 & H2 & _). apply xor_in_fits; assumption.
Qed.
Lemma fold_fits : forall A (f : bytes -> A -> bytes) l b, (forall b a, fits b -> fits (f b a)) -> fits b -> fits (fold_left f l b).
Proof using. clear. intros A f l. induction l as [|a l IH]; intros b H1 H2; cbn [fold_left]; auto. Qed.

Lemma bit_loop_ok : forall body i base, body_ok body i -> (0 <= base < 2147483648)%Z ->
  (Z.of_nat (length values) < 2147483648)%Z ->
  forall n j0 h, (j0 + n <= 128)%nat -> (forall s, In s selections -> fits (h s)) ->
  bit_loop body base values (seq j0 n) (map h selections)
  = Ok (map (fun s => fold_left (add_bit i (Z.to_nat base) s) (seq j0 n) (h s)) selections).
Proof using Hvals.
  intros body i base HB Hbase Hlen n. induction n as [|n IH]; intros j0 h Hj Hh; cbn [seq bit_loop].
  - f_equal.
  - rewrite Z.mod_small by lia.
    destruct (Z.leb_spec (Z.of_nat (length values)) (base + Z.of_nat j0)).
    + (* end of values reached *)
      f_equal. apply map_ext. intros s.
      assert (HI : forall l b, (forall j, In j l -> (j0 <= j)%nat) -> fold_left (add_bit i (Z.to_nat base) s) l b = b).
      { induction l as [|j l IHl]; intros b Hl; cbn [fold_left]; [reflexivity|].
        assert (add_bit i (Z.to_nat base) s b j = b) as ->.
        { unfold add_bit. rewrite (proj2 (nth_error_None _ _)); [reflexivity|]. specialize (Hl j (or_introl eq_refl)). lia. }
        apply IHl. intros. apply Hl. right. assumption. }
      symmetry. apply (HI (j0 :: seq (S j0) n)). intros j [->|Hj']; [lia|]. apply in_seq in Hj'. lia.
    + unfold atz_or_ub. destruct (Z.ltb_spec (base + Z.of_nat j0) 0); [lia|]. unfold at_or_ub.
      replace (Z.to_nat (base + Z.of_nat j0)) with (Z.to_nat base + j0)%nat by lia.
      destruct (nth_error values (Z.to_nat base + j0)) as [v|] eqn:E; [|apply nth_error_None in E; lia].
      cbn [bind]. pose proof (proj1 (Forall_forall _ _) Hvals v (nth_error_In _ _ E)) as (H1 & H2 & H3).
      rewrite HB by auto. cbn [bind]. rewrite IH.
      * f_equal. apply map_ext. intros s. cbn [fold_left]. f_equal. unfold after_value, add_bit. rewrite E. reflexivity.
      * lia.
      * intros s Hs. unfold after_value. destruct (bit_of i j0 s); auto. apply xor_in_fits; auto.
Qed.
Lemma bit_loop_neg : forall body base js bufs, (-2147483648 <= base <= -128)%Z -> Forall (fun j => (j < 128)%nat) js ->
  (Z.of_nat (length values) < 2147483648)%Z -> bit_loop body base values js bufs = Ok bufs.
Proof using.
  clear. intros body base js bufs Hb Hj Hl. destruct js as [|j js]; [reflexivity|]. cbn [bit_loop]. inversion Hj; subst.
  replace ((base + Z.of_nat j) mod 18446744073709551616)%Z with (base + Z.of_nat j + 18446744073709551616)%Z.
  - destruct (Z.leb_spec (Z.of_nat (length values)) (base + Z.of_nat j + 18446744073709551616)); [reflexivity|lia].
  - apply Z.mod_unique with (-1)%Z; lia.
Qed.

Lemma add_block_fits : forall i base s b, fits b -> fits (add_block i base s b).
Proof using Hvals. intros. unfold add_block. apply fold_fits; auto. intros. apply add_bit_fits. assumption. Qed.
(** The effect of block [i] with the base the code computes. *)
Definition hwy_block (i : nat) (s : list N) (b : bytes) : bytes :=
  let base := to_int32 (Z.of_nat i * 128) in
  if (base <? 0)%Z then b else add_block i (Z.to_nat base) s b.

Lemma hwy_block_fits : forall i s b, fits b -> fits (hwy_block i s b).
Proof using Hvals.
  intros. unfold hwy_block. cbn zeta. destruct (to_int32 (Z.of_nat i * 128) <? 0)%Z; auto.
  apply fold_fits; auto. intros. apply add_bit_fits. assumption.
Qed.
Lemma zeros_fit : fits (repeat 0 max).
Proof using. clear. split; [apply repeat_length|]. unfold is_bytes. apply Forall_forall. intros x Hx. apply repeat_spec in Hx. subst. lia. Qed.

Lemma repeat_map : forall A B (x : B) (l : list A), repeat x (length l) = map (fun _ => x) l.
Proof using. clear. induction l; cbn [length repeat map]; [reflexivity|]. f_equal. assumption. Qed.

Lemma base_range : forall i, (-2147483648 <= to_int32 (Z.of_nat i * 128) < 2147483648)%Z /\ (to_int32 (Z.of_nat i * 128) mod 128 = 0)%Z.
Proof using. clear. intros i. unfold to_int32. split; [lia|]. lia. Qed.

Theorem hwy_ok : t_scalar t = false -> (4 <= t_log_lanes t)%nat -> selections <> [] ->
  (Z.of_nat (length values) < 2147483648)%Z ->
  inner_product_hwy t values selections max
  = Ok (map (fun s => fold_left (fun b i => hwy_block i s b) (seq 0 nb) (repeat 0 max)) selections).
Proof using HT Hnb Hvals.
  intros Hs Hlog Hne Hlen. unfold inner_product_hwy. rewrite Hs. cbn [orb].
  assert (HP : 2 ^ N.of_nat (t_log_lanes t) = 16 * 2 ^ (N.of_nat (t_log_lanes t) - 4)).
  { change 16 with (2 ^ 4). rewrite <- N.pow_add_r. f_equal. lia. }
  assert (0 < 2 ^ (N.of_nat (t_log_lanes t) - 4)) by (apply N.neq_0_lt_0, N.pow_nonzero; discriminate).
  cbn zeta. rewrite HP. destruct (N.ltb_spec (16 * 2 ^ (N.of_nat (t_log_lanes t) - 4)) 16); [lia|].
  rewrite (N.mul_comm 16), N.mod_mul by discriminate. cbn [N.eqb negb orb].
  destruct selections as [|s0 rest] eqn:ES; [congruence|]. rewrite <- ES in *.
  assert (E0 : at_or_ub selections 0 = Ok s0) by (rewrite ES; reflexivity). rewrite E0. cbn [bind].
  assert (L0 : length s0 = nb) by (rewrite ES in Hnb; inversion Hnb; assumption).
  rewrite L0, repeat_map.
  clear E0 ES HP. repeat match goal with H : _ < _ |- _ => clear H | H : _ <= _ |- _ => clear H end.
  assert (HI : forall n i h, (i + n = nb)%nat -> (forall s, In s selections -> fits (h s)) ->
    foldM (fun bufs i => bit_loop (fun j value bufs => hwy_value t selections i j value bufs)
             (to_int32 (Z.of_nat i * 128)) values (seq 0 128) bufs) (seq i n) (map h selections)
    = Ok (map (fun s => fold_left (fun b i => hwy_block i s b) (seq i n) (h s)) selections)).
  { induction n as [|n IH]; intros i h Hi Hh; [reflexivity|].
    change (seq i (S n)) with (i :: seq (S i) n). cbn [foldM fold_left].
    pose proof (base_range i) as [HR1 HR2].
    assert (HS : bit_loop (fun j value bufs => hwy_value t selections i j value bufs)
             (to_int32 (Z.of_nat i * 128)) values (seq 0 128) (map h selections)
             = Ok (map (fun s => hwy_block i s (h s)) selections)).
    { unfold hwy_block. cbn zeta. destruct (Z.ltb_spec (to_int32 (Z.of_nat i * 128)) 0).
      - rewrite bit_loop_neg; [reflexivity|clear - HR1 HR2 H; lia| |assumption]. apply Forall_forall. intros j Hj. apply in_seq in Hj. lia.
      - assert (HBo : body_ok (fun j value bufs => hwy_value t selections i j value bufs) i)
          by (apply hwy_value_ok; [clear - Hi; lia|assumption]).
        pose proof (bit_loop_ok _ i (to_int32 (Z.of_nat i * 128)) HBo (conj H (proj2 HR1)) Hlen 128 0 h (le_n 128) Hh) as HL.
        unfold add_block. exact HL. }
    rewrite HS. cbn [bind]. rewrite IH; [reflexivity|clear - Hi; lia|]. intros s Hs'. apply hwy_block_fits. auto. }
  apply HI; [lia|]. intros. apply zeros_fit.
Qed.

Definition no_hwy_body (i j : nat) (value : view) (bufs : list bytes) : res (list bytes) :=
  foldM (fun bufs k => bit <- selection_bit selections k i j ;;
           if negb bit then Ok bufs
           else buf <- at_or_ub bufs k ;;
                buf' <- xor_string_no_hwy value (t_saddr t k) buf ;;
                Ok (set_nth bufs k buf'))
        (seq 0 (length selections)) bufs.
Lemma no_hwy_block : forall i h, (i < nb)%nat -> (Z.of_nat i * 128 < 2147483648)%Z ->
  (Z.of_nat (length values) < 2147483648)%Z -> (forall s, In s selections -> fits (h s)) ->
  bit_loop (no_hwy_body i) (Z.of_nat i * 128) values (seq 0 128) (map h selections)
  = Ok (map (fun s => add_block i (i * 128) s (h s)) selections).
Proof using Hnb Hvals.
  clear HT. intros i h Hi HR Hlen Hh.
  assert (HBo : body_ok (no_hwy_body i) i).
  { intros j value h' H1 H2 H3 Hh'. apply no_hwy_updates; auto. }
  assert (HR' : (0 <= Z.of_nat i * 128 < 2147483648)%Z) by (clear - HR; lia).
  pose proof (bit_loop_ok _ i (Z.of_nat i * 128) HBo HR' Hlen 128 0 h (le_n 128) Hh) as HL.
  rewrite HL. unfold add_block. replace (Z.to_nat (Z.of_nat i * 128)) with (i * 128)%nat by (clear; lia). reflexivity.
Qed.

Theorem no_hwy_ok : N.of_nat nb <= 16777216 -> selections <> [] ->
  (Z.of_nat (length values) < 2147483648)%Z ->
  inner_product_no_hwy t values selections max
  = Ok (map (fun s => fold_left (fun b i => add_block i (i * 128) s b) (seq 0 nb) (repeat 0 max)) selections).
Proof using Hnb Hvals.
  clear HT. intros Hb Hne Hlen.
  assert (H0 : exists s0, at_or_ub selections 0 = Ok s0 /\ length s0 = nb).
  { clear - Hne Hnb. destruct selections as [|s0 rest]; [congruence|]. exists s0. inversion Hnb; subst. auto. }
  destruct H0 as (s0 & E0 & L0).
  unfold inner_product_no_hwy. rewrite E0. cbn [bind]. rewrite L0, repeat_map.
  match goal with |- foldM ?f _ _ = _ => set (F := f) end.
  assert (HF : forall i bufs, F bufs i = if (2147483648 <=? Z.of_nat i * 128)%Z then UB
     else bit_loop (no_hwy_body i) (Z.of_nat i * 128) values (seq 0 128) bufs) by reflexivity.
  clearbody F.
  apply (foldM_map_loop _ F (fun i s b => add_block i (i * 128) s b) fits selections nb 0 (fun _ => repeat 0 max)).
  - intros k h Hk Hh. rewrite HF. destruct (Z.leb_spec 2147483648 (Z.of_nat k * 128)); [clear - Hk Hb H; lia|].
    apply no_hwy_block; [apply Hk|assumption|assumption|assumption].
  - intros. apply add_block_fits. assumption.
  - intros. apply zeros_fit.
Qed.

End Products.
