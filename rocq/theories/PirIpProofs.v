(** The inner product byte by byte: what the loops of InnerProductHwy and InnerProductNoHwy
    compute is the XOR of the selected records (C30). *)
From Coq Require Import List NArith ZArith Lia Bool ZifyBool ZifyNat ZifyN.
From Verif Require Import Base ListUtil ValueTypesModel ValueTypesProofs HwyProofs PirDbModel PirSpec PirDbProofs.
Import ListNotations.
Ltac Zify.zify_post_hook ::= Z.div_mod_to_equations.
Open Scope N_scope.

Lemma xor_all_app : forall a b, xor_all (a ++ b) = N.lxor (xor_all a) (xor_all b).
Proof.
  induction a as [|x a IH]; intros b; cbn [app].
  - unfold xor_all. cbn [fold_right]. rewrite N.lxor_0_l. reflexivity.
  - change (xor_all (x :: a ++ b)) with (N.lxor x (xor_all (a ++ b))).
    change (xor_all (x :: a)) with (N.lxor x (xor_all a)). rewrite IH. rewrite N.lxor_assoc. reflexivity.
Qed.
Lemma xor_all_cons : forall x a, xor_all (x :: a) = N.lxor x (xor_all a).
Proof. reflexivity. Qed.
Lemma xor_all_zero : forall A (f : A -> N) l, (forall x, In x l -> f x = 0) -> xor_all (map f l) = 0.
Proof.
  induction l as [|x l IH]; intros H; cbn [map]; [reflexivity|]. rewrite xor_all_cons, H, IH by (auto with datatypes).
  apply N.lxor_0_l.
Qed.
Lemma xor_all_lxor : forall A (f g : A -> N) l,
  xor_all (map (fun x => N.lxor (f x) (g x)) l) = N.lxor (xor_all (map f l)) (xor_all (map g l)).
Proof.
  induction l as [|x l IH]; cbn [map]; [reflexivity|]. rewrite !xor_all_cons, IH.
  rewrite !N.lxor_assoc. f_equal. rewrite <- !N.lxor_assoc. f_equal. apply N.lxor_comm.
Qed.
Lemma xor_all_single : forall A (f : A -> N) (l : list A) a, NoDup l -> In a l ->
  (forall x, In x l -> x <> a -> f x = 0) -> xor_all (map f l) = f a.
Proof.
  induction l as [|x l IH]; intros a HN Hin Hz; [destruct Hin|]. inversion HN; subst. cbn [map]. rewrite xor_all_cons.
  destruct Hin as [->|Hin].
  - rewrite xor_all_zero; [apply N.lxor_0_r|]. intros y Hy. apply Hz; [right; assumption|]. intros ->. contradiction.
  - rewrite (IH a) by (auto; intros; apply Hz; auto; right; assumption).
    rewrite (Hz x); [apply N.lxor_0_l|left; reflexivity|]. intros ->. contradiction.
Qed.
(** Indices as (block, bit) pairs. *)
Lemma xor_all_blocks : forall (f : nat -> N) m n,
  xor_all (map f (seq 0 (n * m))) = xor_all (map (fun i => xor_all (map (fun j => f (i * m + j)%nat) (seq 0 m))) (seq 0 n)).
Proof.
  intros f m. induction n as [|n IH]; [reflexivity|].
  rewrite seq_S, map_app, xor_all_app, <- IH. cbn [Nat.add]. replace (S n * m)%nat with (n * m + m)%nat by lia.
  rewrite seq_app, map_app, xor_all_app. f_equal. cbn [map]. rewrite xor_all_cons. unfold xor_all at 3. cbn [fold_right].
  rewrite N.lxor_0_r. f_equal. rewrite Nat.add_0_l. clear IH. generalize (n * m)%nat. intros a.
  rewrite <- (map_map (fun j => a + j)%nat f). f_equal.
  rewrite <- (Nat.add_0_r a) at 1. generalize 0%nat as b. clear.
  induction m as [|m IH]; intros b; cbn [seq map]; [reflexivity|]. f_equal. rewrite <- IH. f_equal. lia.
Qed.
Lemma xor_all_prefix : forall (f : nat -> N) a b, (a <= b)%nat -> (forall x, (a <= x < b)%nat -> f x = 0) ->
  xor_all (map f (seq 0 b)) = xor_all (map f (seq 0 a)).
Proof.
  intros f a b H Hz. replace b with (a + (b - a))%nat by lia. rewrite seq_app, map_app, xor_all_app.
  rewrite (xor_all_zero _ f (seq (0 + a) (b - a))); [apply N.lxor_0_r|]. intros x Hx. apply in_seq in Hx. apply Hz. lia.
Qed.

Lemma nth_bytes : forall p (b : bytes), nth p b 0 = match nth_error b p with Some x => x | None => 0 end.
Proof. intros p b. destruct (nth_error b p) eqn:E; [apply nth_error_nth; assumption|]. apply nth_error_None in E. apply nth_overflow. assumption. Qed.
Lemma xor_in_byte : forall v b p, (length v <= length b)%nat -> nth p (xor_in v b) 0 = N.lxor (nth p b 0) (nth p v 0).
Proof.
  intros v b p H. rewrite !nth_bytes. unfold xor_in. rewrite xor_upto_nth by lia.
  destruct (Nat.ltb_spec p (length v)).
  - destruct (nth_error b p) eqn:E1, (nth_error v p) eqn:E2; try reflexivity;
      (apply nth_error_None in E1 || apply nth_error_None in E2); lia.
  - destruct (nth_error v p) eqn:E2; [assert (nth_error v p <> None) as Hx by congruence; apply nth_error_Some in Hx; lia|].
    rewrite N.lxor_0_r. reflexivity.
Qed.

Lemma fold_bytes : forall A (P : bytes -> Prop) (f : bytes -> A -> bytes) (c : A -> N) p l b,
  (forall b a, P b -> P (f b a)) -> (forall b a, In a l -> P b -> nth p (f b a) 0 = N.lxor (nth p b 0) (c a)) -> P b ->
  nth p (fold_left f l b) 0 = N.lxor (nth p b 0) (xor_all (map c l)).
Proof.
  intros A P f c p l. induction l as [|a l IH]; intros b HP Hf Hb; cbn [fold_left map].
  - unfold xor_all. cbn [fold_right]. rewrite N.lxor_0_r. reflexivity.
  - rewrite IH by (auto with datatypes). rewrite Hf by (auto with datatypes). rewrite xor_all_cons, N.lxor_assoc. reflexivity.
Qed.

(** What block [i] of the selection vector adds to byte [p] if the code maps it to the
    records from [base] on. *)
Definition contrib (recs : list bytes) (s : list N) (p i base : nat) : N :=
  xor_all (map (fun j => if bit_of i j s then nth p (nth (base + j) recs []) 0 else 0) (seq 0 128)).
Definition hwy_contrib (recs : list bytes) (s : list N) (p i : nat) : N :=
  let base := to_int32 (Z.of_nat i * 128) in
  if (base <? 0)%Z then 0 else contrib recs s p i (Z.to_nat base).

Section Bytes.
Variables (values : list view) (max : nat).
Hypothesis Hvals : Forall (fun v => (length (v_data v) <= max)%nat /\ is_bytes (v_data v) /\
  N.of_nat (length (v_data v)) < 2 ^ 31) values.
Let recs := map v_data values.

Lemma nth_recs : forall k v, nth_error values k = Some v -> nth k recs [] = v_data v.
Proof using. clear. intros k v H. apply nth_error_nth. unfold recs. rewrite nth_error_map, H. reflexivity. Qed.
Lemma nth_recs_none : forall k, (length values <= k)%nat -> nth k recs [] = [].
Proof using. clear. intros k H. apply nth_overflow. unfold recs. rewrite map_length. assumption. Qed.

Lemma add_bit_byte : forall i base s b j p, fits max b ->
  nth p (add_bit values i base s b j) 0
  = N.lxor (nth p b 0) (if bit_of i j s then nth p (nth (base + j) recs []) 0 else 0).
Proof using Hvals.
  intros i base s b j p [Hb _]. unfold add_bit. destruct (nth_error values (base + j)) as [v|] eqn:E.
  - rewrite (nth_recs _ _ E). destruct (bit_of i j s); [|rewrite N.lxor_0_r; reflexivity].
    apply xor_in_byte. pose proof (proj1 (Forall_forall _ _) Hvals v (nth_error_In _ _ E)) as (H1 & _). lia.
  - apply nth_error_None in E. rewrite nth_recs_none by assumption.
    replace (nth p (@nil N) 0) with 0 by (destruct p; reflexivity). destruct (bit_of i j s); rewrite N.lxor_0_r; reflexivity.
Qed.
Lemma add_block_byte : forall i base s b p, fits max b ->
  nth p (add_block values i base s b) 0 = N.lxor (nth p b 0) (contrib recs s p i base).
Proof using Hvals.
  intros i base s b p Hb. unfold add_block, contrib.
  apply (fold_bytes _ (fits max)); auto.
  - intros. apply add_bit_fits; assumption.
  - intros. apply add_bit_byte. assumption.
Qed.
Lemma hwy_block_byte : forall i s b p, fits max b ->
  nth p (hwy_block values i s b) 0 = N.lxor (nth p b 0) (hwy_contrib recs s p i).
Proof using Hvals.
  intros i s b p Hb. unfold hwy_block, hwy_contrib. cbn zeta. destruct (to_int32 (Z.of_nat i * 128) <? 0)%Z.
  - rewrite N.lxor_0_r. reflexivity.
  - apply add_block_byte. assumption.
Qed.

Lemma nth_zeros : forall p n, nth p (repeat 0 n) 0 = 0.
Proof using. clear. induction p; destruct n; cbn [repeat nth]; auto. Qed.

Lemma hwy_fold_byte : forall s n p,
  nth p (fold_left (fun b i => hwy_block values i s b) (seq 0 n) (repeat 0 max)) 0
  = xor_all (map (hwy_contrib recs s p) (seq 0 n)).
Proof using Hvals.
  intros s n p. rewrite (fold_bytes _ (fits max) _ (hwy_contrib recs s p)).
  - rewrite nth_zeros, N.lxor_0_l. reflexivity.
  - intros. apply hwy_block_fits; assumption.
  - intros. apply hwy_block_byte; assumption.
  - apply zeros_fit.
Qed.
Lemma no_hwy_fold_byte : forall s n p,
  nth p (fold_left (fun b i => add_block values i (i * 128) s b) (seq 0 n) (repeat 0 max)) 0
  = xor_all (map (fun i => contrib recs s p i (i * 128)) (seq 0 n)).
Proof using Hvals.
  intros s n p. rewrite (fold_bytes _ (fits max) _ (fun i => contrib recs s p i (i * 128))).
  - rewrite nth_zeros, N.lxor_0_l. reflexivity.
  - intros. apply add_block_fits; assumption.
  - intros. apply add_block_byte; assumption.
  - apply zeros_fit.
Qed.
Lemma hwy_fold_fits : forall s n, fits max (fold_left (fun b i => hwy_block values i s b) (seq 0 n) (repeat 0 max)).
Proof using Hvals. intros. apply fold_fits; [|apply zeros_fit]. intros. apply hwy_block_fits; assumption. Qed.
Lemma no_hwy_fold_fits : forall s n, fits max (fold_left (fun b i => add_block values i (i * 128) s b) (seq 0 n) (repeat 0 max)).
Proof using Hvals. intros. apply fold_fits; [|apply zeros_fit]. intros. apply add_block_fits; assumption. Qed.
End Bytes.

Lemma selected_split : forall s i j, (j < 128)%nat -> selected s (i * 128 + j) = bit_of i j s.
Proof.
  intros s i j H. unfold selected, bit_of.
  replace (Nat.div (i * 128 + j) 128) with i by (apply Nat.div_unique with j; lia).
  replace (Nat.modulo (i * 128 + j) 128) with j by (apply Nat.mod_unique with i; lia). reflexivity.
Qed.
(** The specification, block by block. *)
Lemma contrib_spec : forall recs s p n, (length recs <= n * 128)%nat ->
  xor_all (map (fun i => contrib recs s p i (i * 128)) (seq 0 n))
  = xor_all (map (fun idx => if selected s idx then nth p (nth idx recs []) 0 else 0) (seq 0 (length recs))).
Proof.
  intros recs s p n H.
  rewrite <- (xor_all_prefix _ (length recs) (n * 128) H).
  - rewrite xor_all_blocks. f_equal. apply map_ext. intros i. unfold contrib. f_equal. apply map_ext_in. intros j Hj.
    apply in_seq in Hj. rewrite selected_split by lia. reflexivity.
  - intros x Hx. rewrite (nth_overflow recs) by lia. destruct (selected s x), p; reflexivity.
Qed.
Lemma contrib_beyond : forall recs s p i, (length recs <= i * 128)%nat -> contrib recs s p i (i * 128) = 0.
Proof.
  intros recs s p i H. unfold contrib. apply xor_all_zero. intros j Hj. rewrite (nth_overflow recs) by lia.
  destruct (bit_of i j s), p; reflexivity.
Qed.
Lemma to_int32_small : forall z, (0 <= z < 2147483648)%Z -> to_int32 z = z.
Proof. intros z H. unfold to_int32. rewrite Z.mod_small; lia. Qed.
Lemma to_int32_upper : forall z, (2147483648 <= z < 4294967296)%Z -> to_int32 z = (z - 4294967296)%Z.
Proof.
  intros z H. unfold to_int32.
  replace ((z + 2147483648) mod 4294967296)%Z with (z + 2147483648 - 4294967296)%Z; [lia|].
  apply Z.mod_unique with 1%Z; lia.
Qed.
(** Up to 2^25 blocks the truncated base is harmless. *)
Lemma hwy_contrib_ok : forall recs s p i, (Z.of_nat (length recs) < 2147483648)%Z -> (Z.of_nat i < 33554432)%Z ->
  hwy_contrib recs s p i = contrib recs s p i (i * 128).
Proof.
  intros recs s p i HL Hi. unfold hwy_contrib. cbn zeta.
  destruct (Z.ltb_spec (Z.of_nat i * 128) 2147483648).
  - rewrite to_int32_small by lia. destruct (Z.ltb_spec (Z.of_nat i * 128) 0); [lia|].
    replace (Z.to_nat (Z.of_nat i * 128)) with (i * 128)%nat by lia. reflexivity.
  - rewrite to_int32_upper by lia. destruct (Z.ltb_spec (Z.of_nat i * 128 - 4294967296) 0); [|lia].
    symmetry. apply contrib_beyond. lia.
Qed.

Lemma nth_bytes_ext : forall (a b : bytes), length a = length b -> (forall p, (p < length a)%nat -> nth p a 0 = nth p b 0) -> a = b.
Proof. intros a b H1 H2. apply (nth_ext a b 0 0); assumption. Qed.
Lemma selected_xor_nth : forall recs size s p, (p < size)%nat ->
  nth p (selected_xor recs size s) 0
  = xor_all (map (fun idx => if selected s idx then nth p (nth idx recs []) 0 else 0) (seq 0 (length recs))).
Proof.
  intros recs size s p H. unfold selected_xor. erewrite nth_error_nth; [reflexivity|].
  rewrite nth_error_map, nth_error_seq by assumption. reflexivity.
Qed.
Lemma selected_xor_length : forall recs size s, length (selected_xor recs size s) = size.
Proof. intros. unfold selected_xor. rewrite map_length, seq_length. reflexivity. Qed.

(** ** InnerProduct *)
Definition vector_target (t : target) : Prop := t_scalar t = false /\ (4 <= t_log_lanes t)%nat.

Lemma iterM_all_ok : forall A (f : A -> res unit) l, (forall x, In x l -> f x = Ok tt) -> iterM f l = Ok tt.
Proof. induction l as [|x l IH]; intros H; cbn [iterM]; [reflexivity|]. rewrite H by (left; reflexivity). cbn [bind]. apply IH. intros. apply H. right. assumption. Qed.

Section IP.
Variables (t : target) (values : list view) (selections : list (list N)) (nb : nat) (max : Z).
Hypothesis HT : target_ok t.
Hypothesis Hne : selections <> [].
Hypothesis Hnb : Forall (fun s => length s = nb) selections.
Hypothesis Hnb31 : (Z.of_nat nb < 2147483648)%Z.
Hypothesis Hcover : (length values <= nb * 128)%nat.
Hypothesis Hlen : (Z.of_nat (length values) < 2147483648)%Z.
Hypothesis Hmax : (0 < max)%Z.
Hypothesis Hvals : Forall (fun v => (Z.of_nat (length (v_data v)) <= max)%Z /\ is_bytes (v_data v) /\
  N.of_nat (length (v_data v)) < 2 ^ 31) values.

Lemma inner_product_reduces : inner_product t values selections max = inner_product_hwy t values selections (Z.to_nat max).
Proof using Hne Hnb Hnb31 Hcover Hlen Hmax Hvals.
  unfold inner_product. destruct selections as [|s0 rest] eqn:ES; [congruence|]. rewrite <- ES in *.
  assert (L0 : length s0 = nb) by (rewrite ES in Hnb; inversion Hnb; assumption). rewrite L0. cbn zeta.
  rewrite to_int32_small by lia.
  rewrite iterM_all_ok.
  - cbn [bind]. rewrite iterM_all_ok.
    + cbn [bind]. destruct (Z.leb_spec 2147483648 (Z.of_nat (length values))); [lia|]. reflexivity.
    + intros v Hv. pose proof (proj1 (Forall_forall _ _) Hvals v Hv) as (H1 & _).
      destruct (Z.leb_spec (Z.of_nat (length (v_data v))) max); [reflexivity|lia].
  - intros s Hs. pose proof (proj1 (Forall_forall _ _) Hnb s Hs) as Hl. cbn beta in Hl. rewrite Hl.
    destruct (Z.ltb_spec (Z.of_nat nb * 128) (Z.of_nat (length values))); [lia|]. cbn [negb check bind].
    rewrite Z.mod_small by lia. rewrite Z.eqb_refl. cbn [check bind]. destruct (Z.ltb_spec 0 max); [reflexivity|lia].
Qed.
Lemma Hvals' : Forall (fun v => (length (v_data v) <= Z.to_nat max)%nat /\ is_bytes (v_data v) /\
  N.of_nat (length (v_data v)) < 2 ^ 31) values.
Proof using Hvals Hmax. eapply Forall_impl; [|exact Hvals]. cbn beta. intros v (H1 & H2 & H3). repeat split; auto. clear - H1 Hmax. lia. Qed.

(** The general form, with the index truncation still visible. *)
Theorem ip_hwy_general : vector_target t ->
  inner_product t values selections max
  = Ok (map (fun s => map (fun p => xor_all (map (hwy_contrib (map v_data values) s p) (seq 0 nb)))
                          (seq 0 (Z.to_nat max))) selections).
Proof using HT Hne Hnb Hnb31 Hcover Hlen Hmax Hvals.
  intros [HS HL]. rewrite inner_product_reduces. rewrite (hwy_ok t values selections nb _ HT Hnb Hvals' HS HL Hne Hlen).
  f_equal. apply map_ext. intros s.
  pose proof (hwy_fold_fits values _ Hvals' s nb) as [Hf _].
  apply nth_bytes_ext; [rewrite Hf, map_length, seq_length; reflexivity|]. intros p Hp. rewrite Hf in Hp.
  rewrite (hwy_fold_byte values _ Hvals').
  symmetry. apply nth_error_nth. rewrite nth_error_map, nth_error_seq by assumption. reflexivity.
Qed.

Theorem ip_ok : (vector_target t /\ (Z.of_nat nb <= 33554432)%Z) \/ (Z.of_nat nb <= 16777216)%Z ->
  inner_product t values selections max
  = Ok (map (selected_xor (map v_data values) (Z.to_nat max)) selections).
Proof using HT Hne Hnb Hnb31 Hcover Hlen Hmax Hvals.
  intros HC.
  assert (HV : vector_target t \/ inner_product t values selections max = inner_product_no_hwy t values selections (Z.to_nat max)).
  { rewrite inner_product_reduces. unfold inner_product_hwy, vector_target. cbn zeta.
    destruct (t_scalar t); cbn [orb]; [right; reflexivity|].
    destruct (N.ltb_spec (2 ^ N.of_nat (t_log_lanes t)) 16); cbn [orb]; [right; reflexivity|].
    left. split; [reflexivity|]. destruct (Nat.le_gt_cases 4 (t_log_lanes t)); [assumption|].
    assert (2 ^ N.of_nat (t_log_lanes t) < 2 ^ 4) by (apply N.pow_lt_mono_r; lia). change (2 ^ 4) with 16 in *. lia. }
  destruct HV as [HV|HV].
  - rewrite ip_hwy_general by assumption. f_equal. apply map_ext. intros s.
    apply map_ext. intros p. rewrite <- (contrib_spec _ s p nb) by (rewrite map_length; assumption).
    f_equal. apply map_ext_in. intros i Hi. apply in_seq in Hi. apply hwy_contrib_ok; [rewrite map_length; assumption|].
    destruct HC as [[_ HC]|HC]; lia.
  - rewrite HV. destruct HC as [[[HS HL] HB]|HC].
    + (* a vector target never falls back; covered by the other case *)
      rewrite <- HV. rewrite ip_hwy_general by (split; assumption). f_equal. apply map_ext. intros s.
      apply map_ext. intros p. rewrite <- (contrib_spec _ s p nb) by (rewrite map_length; assumption).
      f_equal. apply map_ext_in. intros i Hi. apply in_seq in Hi. apply hwy_contrib_ok; [rewrite map_length; assumption|]. lia.
    + rewrite (no_hwy_ok t values selections nb _ Hnb Hvals') by (auto; lia).
      f_equal. apply map_ext. intros s.
      pose proof (no_hwy_fold_fits values _ Hvals' s nb) as [Hf _].
      apply nth_bytes_ext; [rewrite Hf, selected_xor_length; reflexivity|]. intros p Hp. rewrite Hf in Hp.
      rewrite (no_hwy_fold_byte values _ Hvals'), selected_xor_nth by assumption.
      apply contrib_spec. rewrite map_length. assumption.
Qed.
End IP.

(** ** Beyond the limits *)
Lemma foldM_app : forall A S (f : S -> A -> res S) a b s, foldM f (a ++ b) s = (s' <- foldM f a s ;; foldM f b s').
Proof.
  intros A S f a. induction a as [|x a IH]; intros b s; cbn [app foldM bind]; [reflexivity|].
  destruct (f s x); cbn [bind]; auto.
Qed.

(** InnerProductNoHwy overflows its int index on block 2^24. *)
Theorem no_hwy_overflow : forall t values selections nb max, Forall (fun s => length s = nb) selections ->
  Forall (fun v => (length (v_data v) <= max)%nat /\ is_bytes (v_data v) /\ N.of_nat (length (v_data v)) < 2 ^ 31) values ->
  selections <> [] -> (Z.of_nat (length values) < 2147483648)%Z -> (16777216 < Z.of_nat nb)%Z ->
  inner_product_no_hwy t values selections max = UB.
Proof.
  intros t values selections nb max Hnb Hvals Hne Hlen Hb.
  assert (H0 : exists s0, at_or_ub selections 0 = Ok s0 /\ length s0 = nb).
  { clear - Hne Hnb. destruct selections as [|s0 rest]; [congruence|]. exists s0. inversion Hnb; subst. auto. }
  destruct H0 as (s0 & E0 & L0).
  unfold inner_product_no_hwy. rewrite E0. cbn [bind]. rewrite L0, repeat_map.
  match goal with |- foldM ?f _ _ = _ => set (F := f) end.
  assert (HF : forall i bufs, F bufs i = if (2147483648 <=? Z.of_nat i * 128)%Z then UB
     else bit_loop (no_hwy_body t selections i) (Z.of_nat i * 128) values (seq 0 128) bufs) by reflexivity.
  clearbody F.
  assert (HM : exists m, Z.of_nat m = 16777216%Z) by (exists (Z.to_nat 16777216); apply Z2Nat.id; discriminate).
  destruct HM as (m & HM).
  replace nb with (m + (1 + (nb - m - 1)))%nat by lia. rewrite seq_app, foldM_app.
  pose proof (foldM_map_loop _ F (fun i s b => add_block values i (i * 128) s b) (fits max) selections m 0 (fun _ => repeat 0 max)) as HL.
  match goal with |- bind ?x _ = _ => replace x with (Ok (map (fun s => fold_left (fun b k => add_block values k (k * 128) s b)
    (seq 0 m) (repeat 0 max)) selections)) by (symmetry; apply HL; clear HL;
     [intros k h Hk Hh|intros; apply add_block_fits; assumption|intros; apply zeros_fit];
     rewrite HF; destruct (Z.leb_spec 2147483648 (Z.of_nat k * 128)); [lia|];
     apply (no_hwy_block t values selections nb max); auto; lia) end.
  - clear HL. cbn [bind]. rewrite seq_app, foldM_app. cbn [seq foldM]. rewrite HF.
    destruct (Z.leb_spec 2147483648 (Z.of_nat (0 + m) * 128)); [reflexivity|lia].
Qed.
