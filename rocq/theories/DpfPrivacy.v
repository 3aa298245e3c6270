(** A single key is consistent with every alpha and beta: proofs. *)
From Coq Require Import List NArith ZArith Lia Bool ZifyBool ZifyNat ZifyN.
From Verif Require Import Base ListUtil ValueTypesModel ValueTypesSpec ValueTypesProofs
  ConvProofs BitsProofs TypeProofs DpfModel DpfTree DpfWf DpfGen DpfPoint DpfSpec ConvSurj DpfPrivacySpec.
Import ListNotations.
Ltac Zify.zify_post_hook ::= Z.div_mod_to_equations.
Open Scope N_scope.

(** * Lists *)
Lemma finite_choice : forall B (P : nat -> B -> Prop) n (b0 : B),
  (forall h, (h < n)%nat -> exists b, P h b) -> exists f, forall h, (h < n)%nat -> P h (f h).
Proof.
  intros B P n b0. induction n as [|n IH]; intros H.
  - exists (fun _ => b0). lia.
  - destruct IH as (f & Hf); [intros; apply H; lia|]. destruct (H n ltac:(lia)) as (b & Hb).
    exists (fun h => if Nat.eqb h n then b else f h). intros h Hh.
    destruct (Nat.eqb_spec h n) as [->|]; auto. apply Hf. lia.
Qed.
Lemma list_eq_nth_error : forall A (l l' : list A), (forall i, nth_error l i = nth_error l' i) -> l = l'.
Proof.
  induction l as [|a l IH]; intros [|a' l'] H; auto; try (specialize (H 0%nat); discriminate).
  f_equal; [specialize (H 0%nat); cbn in H; congruence|]. apply IH. intros i. apply (H (S i)).
Qed.

(** * Programming an oracle *)
Definition table := list ((N * N) * N).
(** The block cipher for which the hash of the listed blocks has the listed values. *)
Definition program (tbl : table) (aes : N -> N -> N) (k x : N) : N :=
  match find (fun e => (fst (fst e) =? k) && (snd (fst e) =? x)) tbl with
  | Some e => N.lxor (snd e) x
  | None => aes k x
  end.
Lemma program_in : forall tbl aes k x v, NoDup (map fst tbl) -> In ((k, x), v) tbl ->
  program tbl aes k x = N.lxor v x.
Proof.
  intros tbl aes k x v HN HI. unfold program.
  destruct (find _ tbl) as [[[k' x'] v']|] eqn:E.
  - apply find_some in E. destruct E as [E1 E2]. cbn [fst snd] in *.
    apply andb_true_iff in E2. destruct E2 as [Ek Ex]. apply N.eqb_eq in Ek, Ex. subst k' x'.
    replace v' with v; auto. clear - HN HI E1. induction tbl as [|[p w] tbl IH]; [destruct HI|].
    cbn [map fst] in HN. inversion HN as [|? ? Hn HN']; subst.
    destruct HI as [HI|HI], E1 as [E1|E1].
    + congruence.
    + inv HI. exfalso. apply Hn. apply (in_map fst) in E1. exact E1.
    + inv E1. exfalso. apply Hn. apply (in_map fst) in HI. exact HI.
    + auto.
  - exfalso. pose proof (find_none _ _ E _ HI) as H. cbn [fst snd] in H. rewrite !N.eqb_refl in H. discriminate.
Qed.
Lemma program_out : forall tbl aes k x, ~ In (k, x) (map fst tbl) -> program tbl aes k x = aes k x.
Proof.
  intros tbl aes k x H. unfold program. destruct (find _ tbl) as [[[k' x'] v']|] eqn:E; auto.
  exfalso. apply find_some in E. destruct E as [E1 E2]. cbn [fst snd] in *.
  apply andb_true_iff in E2. destruct E2 as [Ek Ex]. apply N.eqb_eq in Ek, Ex. subst k' x'.
  apply H. apply (in_map fst) in E1. exact E1.
Qed.
Lemma program_hash_in : forall tbl aes k y v, NoDup (map fst tbl) -> In ((k, sigma y), v) tbl ->
  hash (program tbl aes) k y = v.
Proof.
  intros. unfold hash. rewrite (program_in _ _ _ _ v) by auto.
  rewrite N.lxor_assoc, N.lxor_nilpotent. apply N.lxor_0_r.
Qed.
Lemma program_hash_out : forall tbl aes k y, ~ In (k, sigma y) (map fst tbl) ->
  hash (program tbl aes) k y = hash aes k y.
Proof. intros. unfold hash. rewrite program_out by auto. reflexivity. Qed.
Lemma lxor_bound : forall n a b, a < 2 ^ n -> b < 2 ^ n -> N.lxor a b < 2 ^ n.
Proof.
  intros n a b Ha Hb. destruct (N.eq_dec (N.lxor a b) 0) as [->|Hn]; [apply N.neq_0_lt_0, N.pow_nonzero; lia|].
  apply N.log2_lt_pow2; [lia|].
  assert (HB : N.log2 (N.lxor a b) <= N.max (N.log2 a) (N.log2 b)) by apply N.log2_lxor.
  destruct (N.eq_dec a 0) as [->|Ea].
  { rewrite N.lxor_0_l in *. apply N.log2_lt_pow2; lia. }
  destruct (N.eq_dec b 0) as [->|Eb].
  { rewrite N.lxor_0_r in *. apply N.log2_lt_pow2; lia. }
  apply N.le_lt_trans with (1 := HB). apply N.max_lub_lt; apply N.log2_lt_pow2; lia.
Qed.
Lemma clear_bound : forall a n, a < 2 ^ n -> clear_lowest a < 2 ^ n.
Proof.
  intros a n H. unfold clear_lowest. apply N.le_lt_trans with a; auto. apply N.ldiff_le.
  apply N.bits_inj. intros i. rewrite N.ldiff_spec, N.ldiff_spec, N.bits_0.
  destruct (N.testbit a i), (N.testbit 1 i); reflexivity.
Qed.
Lemma sigma_bound : forall x, sigma x < 2 ^ 128.
Proof.
  intros x. unfold sigma, mk128. change (2 ^ 128) with (P64 * P64).
  pose proof (N.mod_lt (N.lxor (hi64 x) (lo64 x)) P64 ltac:(discriminate)).
  pose proof (N.mod_lt (hi64 x) P64 ltac:(discriminate)).
  change P64 with 18446744073709551616 in *. nia.
Qed.

(** * One step of key generation, the other way round *)
Lemma even_lowest : forall x, N.even x = true -> lowest_bit x = false.
Proof. intros x H. unfold lowest_bit. rewrite <- N.negb_even, H. reflexivity. Qed.
Lemma clear_even : forall x, lowest_bit x = false -> clear_lowest x = x.
Proof.
  intros x H. rewrite lowest_bit_bit0 in H. unfold clear_lowest. apply N.bits_inj. intros i. rewrite N.ldiff_spec.
  destruct (N.eq_dec i 0) as [->|Hi].
  - rewrite H. reflexivity.
  - replace (N.testbit 1 i) with false; [apply andb_true_r|]. symmetry.
    destruct i as [|p]; [congruence|]. destruct p; reflexivity.
Qed.
(** A block with the given upper bits and lowest bit. *)
Definition with_bit (x : N) (b : bool) : N := N.lxor x (if b then 1 else 0).
Lemma with_bit_lowest : forall x b, lowest_bit x = false -> lowest_bit (with_bit x b) = b.
Proof. intros x b H. unfold with_bit. rewrite lowest_bit_lxor, H. destruct b; reflexivity. Qed.
Lemma with_bit_clear : forall x b, lowest_bit x = false -> clear_lowest (with_bit x b) = x.
Proof.
  intros x b H. unfold with_bit. rewrite clear_lxor, (clear_even x) by auto.
  replace (clear_lowest (if b then 1 else 0)) with 0 by (destruct b; reflexivity). apply N.lxor_0_r.
Qed.

(** The blocks the seed of party B must expand to: A's blocks are [la], [ra], A's
    control bit is [ta], the path goes to the side [x], the correction is [c], and B's
    next seed is [bn]. *)
Definition need_left (la : N) (ta x : bool) (c : corr) (bn : N) : N :=
  with_bit (if x then N.lxor (clear_lowest la) (fst c)
            else if negb ta then N.lxor bn (fst c) else bn)
           (xorb (xorb (xorb (fst (snd c)) (lowest_bit la)) x) true).
Definition need_right (ra : N) (ta x : bool) (c : corr) (bn : N) : N :=
  with_bit (if x then (if negb ta then N.lxor bn (fst c) else bn)
            else N.lxor (clear_lowest ra) (fst c))
           (xorb (xorb (snd (snd c)) (lowest_bit ra)) x).

(** The state with party A's node and party B's node; [f]: A is party 1. *)
Definition mkg (f : bool) (a b : node) : gstate :=
  if f then {| g_seed0 := fst b; g_seed1 := fst a; g_bit0 := snd b; g_bit1 := snd a |}
  else {| g_seed0 := fst a; g_seed1 := fst b; g_bit0 := snd a; g_bit1 := snd b |}.

Lemma generate_next_back : forall aes d f a b bn i alpha beta cw, alpha < P128 ->
  let x := N.testbit alpha (N.of_nat (ld_last d - i)) in
  lowest_bit (cw_seed cw) = false -> lowest_bit bn = false ->
  hash aes kPrgKeyLeft b = need_left (hash aes kPrgKeyLeft (fst a)) (snd a) x (corr_of cw) bn ->
  hash aes kPrgKeyRight b = need_right (hash aes kPrgKeyRight (fst a)) (snd a) x (corr_of cw) bn ->
  gen_values aes d i alpha beta (mkg f a (b, negb (snd a))) = Ok (cw_values cw) ->
  let a' := step aes (corr_of cw) x a in
  generate_next aes d i alpha beta (mkg f a (b, negb (snd a))) = Ok (mkg f a' (bn, negb (snd a')), cw).
Proof.
  intros aes d f [sa ta] b bn i alpha beta cw Ha x Hc Hbn HL HR HV. cbv zeta. cbn [fst snd] in *.
  unfold generate_next. fold (gen_values aes d i alpha beta (mkg f (sa, ta) (b, negb ta))).
  rewrite HV. cbn [bind]. rewrite !prg_evaluate_hash.
  assert (HB : Nat.ltb (ld_last d - i) 128 && N.testbit alpha (N.of_nat (ld_last d - i)) = x).
  { unfold x. destruct (Nat.ltb_spec (ld_last d - i) 128); auto.
    cbn [andb]. symmetry. apply testbit_high; auto. lia. }
  rewrite HB. clear HB HV. clearbody x. destruct cw as [c cl cr vals]. cbn [cw_seed cw_values] in *.
  unfold step, corr_of, need_left, need_right in *. cbn [fst snd cw_left cw_right cw_seed] in *.
  set (la := hash aes kPrgKeyLeft sa) in *. set (ra := hash aes kPrgKeyRight sa) in *.
  set (lb := hash aes kPrgKeyLeft b) in *. set (rb := hash aes kPrgKeyRight b) in *.
  assert (Hlc : forall y, lowest_bit (N.lxor (clear_lowest y) c) = false)
    by (intros; rewrite lowest_bit_lxor, lowest_bit_clear, Hc; reflexivity).
  assert (Hbc : lowest_bit (N.lxor bn c) = false) by (rewrite lowest_bit_lxor, Hc, Hbn; reflexivity).
  assert (HlbB : lowest_bit lb = xorb (xorb (xorb cl (lowest_bit la)) x) true).
  { rewrite HL. apply with_bit_lowest. destruct x, ta; auto. }
  assert (HrbB : lowest_bit rb = xorb (xorb cr (lowest_bit ra)) x).
  { rewrite HR. apply with_bit_lowest. destruct x, ta; auto. }
  assert (HlbC : clear_lowest lb = if x then N.lxor (clear_lowest la) c else if negb ta then N.lxor bn c else bn).
  { rewrite HL. apply with_bit_clear. destruct x, ta; auto. }
  assert (HrbC : clear_lowest rb = if x then (if negb ta then N.lxor bn c else bn) else N.lxor (clear_lowest ra) c).
  { rewrite HR. apply with_bit_clear. destruct x, ta; auto. }
  clear HL HR.
  destruct f, x, ta; cbn [mkg g_seed0 g_seed1 g_bit0 g_bit1 map at_or_ub nth_error bind fst snd negb andb] in *;
    unfold mkg; cbn [fst snd];
    fold la ra lb rb; clearbody la ra lb rb;
    rewrite ?HlbC, ?HrbC, ?HlbB, ?HrbB, ?clear_lxor, ?lowest_bit_lxor, ?(clear_even c), ?Hc, ?lxor_cancel_l by auto.
  all: repeat match goal with
    | |- context [N.lxor (N.lxor ?p ?q) ?p] => replace (N.lxor (N.lxor p q) p) with q
         by (rewrite (N.lxor_comm p q), N.lxor_assoc, N.lxor_nilpotent, N.lxor_0_r; reflexivity)
    | |- context [N.lxor (N.lxor ?p ?q) ?q] => replace (N.lxor (N.lxor p q) q) with p
         by (rewrite N.lxor_assoc, N.lxor_nilpotent, N.lxor_0_r; reflexivity)
    end.
  all: repeat f_equal; destruct cl, cr, (lowest_bit la), (lowest_bit ra); reflexivity.
Qed.

(** * One value correction, the other way round *)
Section Values.
Variable T : cty.
Hypothesis Hok : cty_ok T = true.
Variables (corrs ea : list cval) (idx : nat) (bT : cval) (inv : bool).
Hypothesis HLc : length corrs = elements_per_block T.
Hypothesis HWc : Forall (fun v => wt T v = true) corrs.
Hypothesis HLa : length ea = elements_per_block T.
Hypothesis HWa : Forall (fun v => wt T v = true) ea.
Hypothesis HwB : wt T bT = true.
Hypothesis Hidx : (idx < elements_per_block T)%nat.

Definition cdelta (j : nat) : cval := if Nat.eqb j idx then bT else vzero T.
Definition csign (c : cval) : cval := if inv then vneg T c else c.
(** The elements of the second seed, given those of the first, and vice versa. *)
Definition solve_second : list cval :=
  map (fun j => vadd T (vadd T (csign (nth j corrs (vzero T))) (nth j ea (vzero T))) (vneg T (cdelta j)))
      (seq 0 (elements_per_block T)).
Definition solve_first : list cval :=
  map (fun j => vadd T (vadd T (nth j ea (vzero T)) (cdelta j)) (vneg T (csign (nth j corrs (vzero T)))))
      (seq 0 (elements_per_block T)).

Lemma cdelta_wt : forall j, wt T (cdelta j) = true.
Proof using Hok HwB. intros j. unfold cdelta. destruct (Nat.eqb j idx); auto using vzero_wt. Qed.
Lemma csign_wt : forall c, wt T c = true -> wt T (csign c) = true.
Proof using Hok. intros c H. unfold csign. destruct inv; auto using vneg_wt. Qed.
Lemma csign_sign : forall c, wt T c = true -> (if inv then vneg T (csign c) else csign c) = c.
Proof using Hok. intros c H. unfold csign. destruct inv; auto. apply vneg_neg; auto. Qed.
Lemma nth_wt : forall l j, Forall (fun v => wt T v = true) l -> wt T (nth j l (vzero T)) = true.
Proof using Hok.
  intros l j H. destruct (Nat.lt_ge_cases j (length l)) as [Hj|Hj].
  - rewrite Forall_forall in H. apply H. apply nth_In. auto.
  - rewrite nth_overflow by auto. apply vzero_wt. auto.
Qed.
Lemma solve_second_ok : length solve_second = elements_per_block T /\ Forall (fun v => wt T v = true) solve_second.
Proof using Hok HWc HWa HwB.
  unfold solve_second. rewrite map_length, seq_length. split; auto. apply Forall_forall. intros v Hv.
  apply in_map_iff in Hv. destruct Hv as (j & <- & _).
  auto 10 using vadd_wt, vneg_wt, cdelta_wt, csign_wt, nth_wt.
Qed.
Lemma solve_first_ok : length solve_first = elements_per_block T /\ Forall (fun v => wt T v = true) solve_first.
Proof using Hok HWc HWa HwB.
  unfold solve_first. rewrite map_length, seq_length. split; auto. apply Forall_forall. intros v Hv.
  apply in_map_iff in Hv. destruct Hv as (j & <- & _).
  auto 10 using vadd_wt, vneg_wt, cdelta_wt, csign_wt, nth_wt.
Qed.

(** The list that the code builds from the two lists of elements. *)
Lemma correction_nth : forall xa xb old, length xa = elements_per_block T -> length xb = elements_per_block T ->
  Forall (fun v => wt T v = true) xa -> Forall (fun v => wt T v = true) xb ->
  nth_error xb idx = Some old ->
  (forall j, (j < elements_per_block T)%nat ->
     vadd T (vadd T (nth j xb (vzero T)) (cdelta j)) (vneg T (nth j xa (vzero T))) = csign (nth j corrs (vzero T))) ->
  zip2 (fun b a => let dd := vsub T b a in if inv then vneg T dd else dd)
       (set_nth xb idx (vadd T old bT)) xa = corrs.
Proof using Hok HLc HWc HLa HwB Hidx.
  intros xa xb old HLxa HLxb HWxa HWxb Hold H. apply list_eq_nth_error. intros j.
  rewrite zip2_nth_error, set_nth_nth_error by lia.
  destruct (Nat.lt_ge_cases j (elements_per_block T)) as [Hj|Hj].
  2:{ rewrite (proj2 (nth_error_None corrs j)) by lia. rewrite (proj2 (nth_error_None xa j)) by lia.
      destruct (Nat.eqb j idx); auto. destruct (nth_error xb j); auto. }
  rewrite (nth_error_nth' xa (vzero T)) by lia. rewrite (nth_error_nth' corrs (vzero T)) by lia.
  rewrite (nth_error_nth' xb (vzero T)) by lia. specialize (H j Hj).
  assert (Hwb : wt T (nth j xb (vzero T)) = true) by (apply nth_wt; auto).
  assert (Hwa : wt T (nth j xa (vzero T)) = true) by (apply nth_wt; auto).
  unfold cdelta in H. destruct (Nat.eqb_spec j idx) as [E|Hne].
  - rewrite <- E in Hold. rewrite (nth_error_nth' xb (vzero T)) in Hold by lia.
    assert (old = nth j xb (vzero T)) as -> by congruence. clear Hold. f_equal. cbv zeta.
    rewrite vsub_add_neg by auto using vadd_wt. rewrite H. apply csign_sign, nth_wt; auto.
  - f_equal. cbv zeta. rewrite vsub_add_neg by auto. rewrite vadd_0_r in H by auto. rewrite H. apply csign_sign, nth_wt; auto.
Qed.

Lemma solve_second_correct : forall ba bb beta, from_value T beta = Ok bT ->
  convert_bytes T ba = Ok ea -> convert_bytes T bb = Ok solve_second ->
  compute_value_correction_for T ba bb idx beta inv = Ok (map (to_value T) corrs).
Proof using Hok HLc HWc HLa HWa HwB Hidx.
  intros ba bb beta HB HA HS. unfold compute_value_correction_for. rewrite HB, HA, HS. cbn [bind].
  destruct solve_second_ok as [HL HW]. unfold at_or_ub.
  destruct (nth_error solve_second idx) as [old|] eqn:Eo; [|apply nth_error_None in Eo; lia].
  cbn [bind]. f_equal. f_equal. apply correction_nth; auto.
  intros j Hj. unfold solve_second. rewrite nth_map_seq by auto.
  set (s := csign _). set (a := nth j ea _). set (e := cdelta j).
  assert (Hs : wt T s = true) by (apply csign_wt, nth_wt; auto).
  assert (Ha : wt T a = true) by (apply nth_wt; auto).
  assert (He : wt T e = true) by apply cdelta_wt. clearbody s a e.
  rewrite <- (vadd_assoc T (vadd T s a)) by auto using vadd_wt, vneg_wt.
  rewrite (vadd_neg_l T Hok) by auto. rewrite vadd_0_r by auto using vadd_wt.
  rewrite <- vadd_assoc by auto using vneg_wt. rewrite vadd_neg_r by auto. apply vadd_0_r; auto.
Qed.
Lemma solve_first_correct : forall ba bb beta, from_value T beta = Ok bT ->
  convert_bytes T bb = Ok ea -> convert_bytes T ba = Ok solve_first ->
  compute_value_correction_for T ba bb idx beta inv = Ok (map (to_value T) corrs).
Proof using Hok HLc HWc HLa HWa HwB Hidx.
  intros ba bb beta HB HA HS. unfold compute_value_correction_for. rewrite HB, HS, HA. cbn [bind].
  destruct solve_first_ok as [HL HW]. unfold at_or_ub.
  destruct (nth_error ea idx) as [old|] eqn:Eo; [|apply nth_error_None in Eo; lia].
  cbn [bind]. f_equal. f_equal. apply correction_nth; auto.
  intros j Hj. unfold solve_first. rewrite nth_map_seq by auto.
  set (s := csign _). set (a := nth j ea _). set (e := cdelta j).
  assert (Hs : wt T s = true) by (apply csign_wt, nth_wt; auto).
  assert (Ha : wt T a = true) by (apply nth_wt; auto).
  assert (He : wt T e = true) by apply cdelta_wt. clearbody s a e.
  assert (Hae : wt T (vadd T a e) = true) by auto using vadd_wt. set (x := vadd T a e) in *. clearbody x.
  rewrite (vneg_add T Hok) by auto using vneg_wt. rewrite (vneg_neg T Hok) by auto.
  rewrite vadd_assoc by auto using vneg_wt. rewrite vadd_neg_r by auto. apply vadd_0_l; auto.
Qed.
End Values.

(** ** Blocks from bytes *)
Definition block_at (b : bytes) (j : nat) : N := le_decode (firstn 16 (skipn (16 * j) b)).
Lemma le_decode_lt : forall b, le_decode b < 256 ^ N.of_nat (length b).
Proof.
  induction b as [|x b IH]; cbn [le_decode length]; [reflexivity|].
  rewrite Nat2N.inj_succ, N.pow_succ_r'. pose proof (N.mod_lt x 256 ltac:(lia)). lia.
Qed.
Lemma block_at_lt : forall b j, block_at b j < 2 ^ 128.
Proof.
  intros b j. unfold block_at. eapply N.lt_le_trans; [apply le_decode_lt|].
  change (2 ^ 128) with (256 ^ 16). apply N.pow_le_mono_r; [lia|]. rewrite firstn_length. lia.
Qed.
Lemma blocks_at : forall n b, length b = (16 * n)%nat -> bytes_ok b ->
  blocks_to_bytes (map (block_at b) (seq 0 n)) = b.
Proof.
  induction n as [|n IH]; intros b HL HO; unfold blocks_to_bytes in *.
  - destruct b; [reflexivity|discriminate].
  - assert (HO2 : bytes_ok (firstn 16 b) /\ bytes_ok (skipn 16 b)).
    { unfold bytes_ok in *. rewrite <- (firstn_skipn 16 b) in HO. apply Forall_app in HO. tauto. }
    cbn [seq map concat]. rewrite <- seq_shift, !map_map.
    transitivity (firstn 16 b ++ skipn 16 b); [|apply firstn_skipn]. f_equal.
    + unfold block_at. cbn [Nat.mul skipn].
      assert (HF : length (firstn 16 b) = 16%nat) by (rewrite firstn_length; lia).
      rewrite <- HF at 1. apply encode_decode. tauto.
    + transitivity (concat (map (le_encode 16) (map (block_at (skipn 16 b)) (seq 0 n)))).
      * f_equal. rewrite !map_map. apply map_ext. intros j. unfold block_at. do 3 f_equal.
        rewrite skipn_skipn'. f_equal. lia.
      * apply IH; [rewrite skipn_length; lia|tauto].
Qed.

(** * The key generation of a given key *)

Lemma gvcf_type : forall d vt T, wf d -> get_value_correction_function d vt = Ok T ->
  cty_ok T = true /\ denotes vt T.
Proof.
  intros d vt T W H. unfold get_value_correction_function in H.
  destruct (find _ (d_types d)) as [t|] eqn:E; inv H. apply find_some in E. destruct E as [E1 E2].
  apply ptype_eqb_eq in E2. pose proof (wf_types _ W) as HT. rewrite Forall_forall in HT. specialize (HT _ E1).
  split; auto. rewrite <- E2. apply to_value_type_denotes. auto.
Qed.
Lemma cvc_eq : forall aes d h sa sb alpha beta inv T p, nth_error (d_params d) h = Some p ->
  get_value_correction_function d (p_type p) = Ok T ->
  compute_value_correction aes d h sa sb alpha beta inv
  = compute_value_correction_for T (node_bytes aes d h sa) (node_bytes aes d h sb)
      (domain_to_block_index d alpha h) beta inv.
Proof.
  intros aes d h sa sb alpha beta inv T p Hp HT. unfold compute_value_correction. unfold at_or_ub at 1.
  rewrite Hp. cbn [bind]. rewrite HT. cbn [bind].
  assert (HE : prg_evaluate aes kPrgKeyValue
            (map (fun j : nat => w128 (sa + N.of_nat j)) (seq 0 (blocks d h)) ++
             map (fun j : nat => w128 (sb + N.of_nat j)) (seq 0 (blocks d h)))
            = hash_expanded_seeds aes (blocks d h) [sa; sb]).
  { unfold hash_expanded_seeds. cbn [map concat]. rewrite app_nil_r. reflexivity. }
  rewrite HE. rewrite (block_bytes_node aes d h [sa; sb] 0 sa), (block_bytes_node aes d h [sa; sb] 1 sb) by reflexivity.
  reflexivity.
Qed.
Lemma block_index_lt : forall d h T x, wf d -> level_type d h T ->
  (domain_to_block_index d x h < elements_per_block T)%nat.
Proof.
  intros d h T x W HT. eapply Nat.lt_le_trans; [|apply (wf_epb _ W h T HT)].
  unfold domain_to_block_index. rewrite N.land_ones.
  pose proof (N.mod_lt x (2 ^ N.of_nat (block_bits d h)) ltac:(apply N.pow_nonzero; lia)) as H.
  replace (2 ^ block_bits d h)%nat with (N.to_nat (2 ^ N.of_nat (block_bits d h))); [lia|].
  rewrite N2Nat.inj_pow, Nat2N.id. reflexivity.
Qed.

(** What acceptance of alpha and beta gives at every level. *)
Lemma accepted_level : forall d alpha beta, wf d -> accepted d alpha beta ->
  alpha < P128 /\ length beta = nlevels d /\ validate_betas (d_params d) beta = Ok tt /\
  alpha < 2 ^ N.of_nat (ld_last d) /\
  forall h, (h < nlevels d)%nat -> exists p b T bT, nth_error (d_params d) h = Some p /\
    nth_error beta h = Some b /\ get_value_correction_function d (p_type p) = Ok T /\ level_type d h T /\
    from_value T b = Ok bT /\ wt T bT = true /\ enough_bytes T (16 * blocks d h).
Proof.
  intros d alpha beta W (Ha & aes & s0 & s1 & [k0 k1] & H). split; [exact Ha|].
  apply (generate_keys_level aes d W) in H; [|exact Ha].
  destruct H as (_ & _ & _ & _ & _ & _ & _ & HL & HV & Hld & HH). split; auto. split; auto. split; auto.
  intros h Hh. destruct (HH h Hh) as (g & b & Hb & _ & HC & _). clear HH.
  destruct (nth_error (d_params d) h) as [p|] eqn:Ep.
  2:{ apply nth_error_None in Ep. unfold nlevels in Hh. lia. }
  destruct (get_value_correction_function d (p_type p)) as [T| | |] eqn:ET.
  2-4: unfold compute_value_correction in HC; unfold at_or_ub at 1 in HC; rewrite Ep in HC; cbn [bind] in HC;
       rewrite ET in HC; discriminate.
  assert (HT : level_type d h T).
  { destruct (gvcf_type d _ T W ET) as [H1 H2]. split; auto. exists p. auto. }
  destruct (compute_value_correction_inv aes d W _ _ _ _ _ _ _ T Hh HT HC)
    as (bT & ea & eb & corrs & H1 & H2 & H3 & _).
  exists p, b, T, bT. split; [reflexivity|]. do 5 (split; [assumption|]). assumption.
Qed.

Section Program.
Variable aes : N -> N -> N.
Variable d : dpf.
Hypothesis W : wf d.
Variable f : bool.
Variable cws : list cword.
Variable klast : list pvalue.
Variable sA : N.
Variable sb : nat -> N.
Variable alpha : N.
Variable beta : list pvalue.

Definition n_cws : nat := (d_levels d - 1)%nat.
Hypothesis Hcws : length cws = n_cws.
Hypothesis Heven : Forall (fun cw => N.even (cw_seed cw) = true) cws.
Definition kv (h : nat) : list pvalue :=
  if Nat.ltb h (nlevels d - 1)
  then match nth_error cws (h2t d h) with Some cw => cw_values cw | None => [] end
  else klast.
Hypothesis Hvalues : forall h, (h < nlevels d)%nat -> exists T, level_type d h T /\ block_of T (kv h).
Hypothesis Hnone : forall i cw, nth_error cws i = Some cw -> tree_to_hierarchy d i = None -> cw_values cw = [].
Hypothesis Hacc : accepted d alpha beta.
Hypothesis Hsb : forall i, (0 < i <= n_cws)%nat -> lowest_bit (sb i) = false.

(** Party A's nodes on the path of alpha. *)
Definition anode (aes : N -> N -> N) (i : nat) : node :=
  walk aes (map corr_of (firstn i cws)) (N.shiftr alpha (N.of_nat (ld_last d - i))) (sA, f).
Hypothesis HND : NoDup (seed_uses d sb).
Hypothesis Hdisj : forall q, In q (seed_uses d (fun i => fst (anode aes i))) -> ~ In q (seed_uses d sb).

Lemma n_cws_ld : (n_cws <= ld_last d)%nat.
Proof using Hcws W cws d.
  pose proof (wf_pos _ W). unfold n_cws. rewrite (wf_levels _ W).
  pose proof (h2t_le_ld_last d W (nlevels d - 1)). lia.
Qed.

Definition cw_at (i : nat) : cword := nth i cws {| cw_seed := 0; cw_left := false; cw_right := false; cw_values := [] |}.
Definition abit (i : nat) : bool := N.testbit alpha (N.of_nat (ld_last d - S i)).
Lemma anode_0 : forall a, anode a 0 = (sA, f).
Proof. reflexivity. Qed.
Lemma firstn_S_nth : forall A (l : list A) i x, nth_error l i = Some x -> firstn (S i) l = firstn i l ++ [x].
Proof.
  induction l as [|a l IH]; intros [|i] x H; cbn in H; try discriminate.
  - inv H. reflexivity.
  - change (firstn (S (S i)) (a :: l)) with (a :: firstn (S i) l). rewrite (IH i x H). reflexivity.
Qed.
Lemma cw_at_nth : forall i, (i < n_cws)%nat -> nth_error cws i = Some (cw_at i).
Proof using Hcws. intros i Hi. apply nth_error_nth'. rewrite Hcws. auto. Qed.
Lemma anode_S : forall a i, (i < n_cws)%nat -> anode a (S i) = step a (corr_of (cw_at i)) (abit i) (anode a i).
Proof using Hcws W.
  clear Hnone Hsb Hvalues.
  intros a i Hi. unfold anode. rewrite (firstn_S_nth _ _ _ _ (cw_at_nth i Hi)), map_app, walk_app. cbn [map walk length].
  pose proof n_cws_ld. unfold abit. f_equal.
  - rewrite N.shiftr_spec'. reflexivity.
  - f_equal. rewrite N.shiftr_shiftr. f_equal. lia.
Qed.

(** ** The table *)
Variable nb : nat -> bytes.
Definition need_l (i : nat) : N :=
  need_left (hash aes kPrgKeyLeft (fst (anode aes i))) (snd (anode aes i)) (abit i) (corr_of (cw_at i)) (sb (S i)).
Definition need_r (i : nat) : N :=
  need_right (hash aes kPrgKeyRight (fst (anode aes i))) (snd (anode aes i)) (abit i) (corr_of (cw_at i)) (sb (S i)).
Definition tbl : table :=
  flat_map (fun i => [((kPrgKeyLeft, sigma (sb i)), need_l i); ((kPrgKeyRight, sigma (sb i)), need_r i)]) (seq 0 n_cws) ++
  flat_map (fun h => map (fun j => ((kPrgKeyValue, sigma (w128 (sb (h2t d h) + N.of_nat j))), block_at (nb h) j))
                         (seq 0 (blocks d h))) (seq 0 (nlevels d)).
Definition aes' : N -> N -> N := program tbl aes.

Lemma map_flat_map : forall A B C (g : B -> C) (k : A -> list B) l,
  map g (flat_map k l) = flat_map (fun a => map g (k a)) l.
Proof. induction l as [|a l IH]; cbn [flat_map]; auto. rewrite map_app, IH. reflexivity. Qed.
Lemma tbl_uses : map fst tbl = seed_uses d sb.
Proof.
  unfold tbl, seed_uses. rewrite map_app, !map_flat_map. f_equal. apply flat_map_ext. intros h. rewrite map_map. reflexivity.
Qed.
Lemma hash_left_b : forall i, (i < n_cws)%nat -> hash aes' kPrgKeyLeft (sb i) = need_l i.
Proof using HND Hcws Hnone Hsb Hvalues aes alpha cws d f klast nb sA sb.
  intros i Hi. apply program_hash_in; [rewrite tbl_uses; exact HND|]. apply in_or_app. left.
  apply in_flat_map. exists i. split; [apply in_seq; lia|left; reflexivity].
Qed.
Lemma hash_right_b : forall i, (i < n_cws)%nat -> hash aes' kPrgKeyRight (sb i) = need_r i.
Proof using HND Hcws Hnone Hsb Hvalues aes alpha cws d f klast nb sA sb.
  intros i Hi. apply program_hash_in; [rewrite tbl_uses; exact HND|]. apply in_or_app. left.
  apply in_flat_map. exists i. split; [apply in_seq; lia|right; left; reflexivity].
Qed.
Lemma node_bytes_b : forall h, (h < nlevels d)%nat -> length (nb h) = (16 * blocks d h)%nat -> bytes_ok (nb h) ->
  node_bytes aes' d h (sb (h2t d h)) = nb h.
Proof using HND Hcws Hnone Hsb Hvalues aes alpha cws d f klast nb sA sb.
  intros h Hh HL HO. unfold node_bytes. etransitivity; [|apply (blocks_at _ _ HL HO)]. f_equal.
  apply map_ext_in. intros j Hj. apply program_hash_in; [rewrite tbl_uses; exact HND|]. apply in_or_app. right.
  apply in_flat_map. exists h. split; [apply in_seq; lia|].
  apply in_map_iff. exists j. auto.
Qed.
Lemma hash_side_a : forall i, (i < n_cws)%nat ->
  hash aes' kPrgKeyLeft (fst (anode aes i)) = hash aes kPrgKeyLeft (fst (anode aes i)) /\
  hash aes' kPrgKeyRight (fst (anode aes i)) = hash aes kPrgKeyRight (fst (anode aes i)).
Proof using Hcws Hdisj Hnone Hsb Hvalues aes alpha cws d f klast nb sA sb.
  intros i Hi. split; apply program_hash_out; rewrite tbl_uses; apply Hdisj; apply in_or_app; left;
    apply in_flat_map; exists i; (split; [apply in_seq; unfold n_cws in Hi; lia|]); [left|right; left]; reflexivity.
Qed.
Lemma anode_same : forall i, (i <= n_cws)%nat -> anode aes' i = anode aes i.
Proof using Hcws Hdisj Hnone Hsb Hvalues W aes alpha cws d f klast nb sA sb.
  induction i as [|i IH]; intros Hi; [reflexivity|]. rewrite !anode_S by lia. rewrite IH by lia.
  destruct (hash_side_a i ltac:(lia)) as [HL HR]. unfold step.
  destruct (abit i); rewrite ?HL, ?HR; reflexivity.
Qed.
Lemma h2t_le_n : forall h, (h < nlevels d)%nat -> (h2t d h <= n_cws)%nat.
Proof using Hcws Hnone Hsb Hvalues W cws d klast nb sb. intros h Hh. unfold n_cws. rewrite (wf_levels _ W). pose proof (h2t_le_last d W h Hh). lia. Qed.
Lemma node_bytes_a : forall h, (h < nlevels d)%nat ->
  node_bytes aes' d h (fst (anode aes (h2t d h))) = node_bytes aes d h (fst (anode aes (h2t d h))).
Proof using Hcws Hdisj Hnone Hsb Hvalues aes alpha cws d f klast nb sA sb.
  intros h Hh. unfold node_bytes. f_equal. apply map_ext_in. intros j Hj. apply program_hash_out. rewrite tbl_uses.
  apply Hdisj. apply in_or_app. right. apply in_flat_map. exists h. split; [apply in_seq; unfold nlevels in Hh; lia|].
  apply in_map_iff. exists j. auto.
Qed.

(** ** The values *)

(** The elements that party B's seed must expand to at level [h]. *)
Definition target (h : nat) (es : list cval) : Prop :=
  exists p b T bT ea corrs, nth_error (d_params d) h = Some p /\ nth_error beta h = Some b /\
    get_value_correction_function d (p_type p) = Ok T /\ level_type d h T /\
    from_value T b = Ok bT /\ wt T bT = true /\
    convert_bytes T (node_bytes aes d h (fst (anode aes (h2t d h)))) = Ok ea /\
    length ea = elements_per_block T /\ Forall (fun v => wt T v = true) ea /\
    length corrs = elements_per_block T /\ Forall (fun v => wt T v = true) corrs /\ kv h = map (to_value T) corrs /\
    let ap := N.shiftr alpha (N.of_nat (ld_last d - ld d h)) in
    let idx := domain_to_block_index d ap h in
    let bit1 := if f then snd (anode aes (h2t d h)) else negb (snd (anode aes (h2t d h))) in
    es = if f then solve_first T corrs ea idx bT bit1 else solve_second T corrs ea idx bT bit1.
Definition nb_ok (h : nat) (b : bytes) : Prop :=
  length b = (16 * blocks d h)%nat /\ bytes_ok b /\
  exists es p T, target h es /\ nth_error (d_params d) h = Some p /\
    get_value_correction_function d (p_type p) = Ok T /\ convert_bytes T b = Ok es.

Lemma nb_exists : forall h, (h < nlevels d)%nat -> exists b, nb_ok h b.
Proof using W Hvalues Hacc.
  intros h Hh. destruct (accepted_level d alpha beta W Hacc) as (Ha & HL & _ & _ & HH).
  destruct (HH h Hh) as (p & b & T & bT & Hp & Hb & HG & HT & HF & HW & HE). clear HH.
  destruct (Hvalues h Hh) as (T' & HT' & corrs & HLc & HWc & Hkv).
  assert (T' = T) as ->.
  { destruct HT as (_ & q & Hq & Hd). destruct HT' as (_ & q' & Hq' & Hd'). eapply denotes_fun; eauto. congruence. }
  pose proof (proj1 HT) as Hok.
  set (nA := node_bytes aes d h (fst (anode aes (h2t d h)))).
  destruct (convert_bytes_ok T nA Hok) as (ea & Hea & HLa & HWa).
  { unfold nA. rewrite node_bytes_length. auto. }
  set (ap := N.shiftr alpha (N.of_nat (ld_last d - ld d h))).
  set (idx := domain_to_block_index d ap h).
  set (bit1 := if f then snd (anode aes (h2t d h)) else negb (snd (anode aes (h2t d h)))).
  set (es := if f then solve_first T corrs ea idx bT bit1 else solve_second T corrs ea idx bT bit1).
  assert (Hes : length es = elements_per_block T /\ Forall (fun v => wt T v = true) es).
  { unfold es. destruct f; [apply solve_first_ok|apply solve_second_ok]; auto. }
  destruct (convert_bytes_surj T es (16 * blocks d h) Hok HE (proj1 Hes) (proj2 Hes)) as (bs & HLb & HOb & HCb).
  exists bs. split; auto. split; auto. exists es, p, T. split; [|auto].
  exists p, b, T, bT, ea, corrs. do 12 (split; [assumption|]). reflexivity.
Qed.

Hypothesis Hnb : forall h, (h < nlevels d)%nat -> nb_ok h (nb h).

Lemma value_back : forall h, (h < nlevels d)%nat ->
  exists b, nth_error beta h = Some b /\
  forall g, g = mkg f (anode aes (h2t d h)) (sb (h2t d h), negb (snd (anode aes (h2t d h)))) ->
    compute_value_correction aes' d h (g_seed0 g) (g_seed1 g) (N.shiftr alpha (N.of_nat (ld_last d - ld d h))) b (g_bit1 g)
    = Ok (kv h).
Proof using HND Hcws Hdisj Hnb Hnone Hsb Hvalues W aes alpha beta cws d f klast nb sA sb.
  intros h Hh. destruct (Hnb h Hh) as (HL & HO & es & p & T & HT & Hp & HG & HC).
  destruct HT as (p' & b & T' & bT & ea & corrs & Hp' & Hb & HG' & Hlt & HF & Hw & Hea & HLa & HWa & HLc & HWc & Hkv & Hes).
  assert (p' = p) by congruence. subst p'. assert (T' = T) by congruence. subst T'. cbv zeta in Hes.
  exists b. split; auto. intros g ->. rewrite (cvc_eq _ _ _ _ _ _ _ _ _ _ Hp HG). rewrite Hkv.
  pose proof (proj1 Hlt) as Hok.
  assert (Hidx : (domain_to_block_index d (N.shiftr alpha (N.of_nat (ld_last d - ld d h))) h < elements_per_block T)%nat)
    by (apply block_index_lt; auto).
  destruct f; cbn [mkg g_seed0 g_seed1 g_bit0 g_bit1 fst snd]; rewrite node_bytes_a, node_bytes_b by auto.
  - eapply solve_first_correct; eauto. congruence.
  - eapply solve_second_correct; eauto. congruence.
Qed.

Definition gnode (i : nat) : gstate := mkg f (anode aes i) (sb i, negb (snd (anode aes i))).

Lemma next_back : forall i, (i < n_cws)%nat ->
  generate_next aes' d (S i) alpha beta (gnode i) = Ok (gnode (S i), cw_at i).
Proof using HND Hacc Hcws Hdisj Heven Hnb Hnone Hsb Hvalues W aes alpha beta cws d f klast nb sA sb.
  intros i Hi. destruct (accepted_level d alpha beta W Hacc) as (Ha & _).
  unfold gnode at 2. rewrite anode_S by auto.
  destruct (hash_side_a i Hi) as [HLa HRa].
  assert (Hst : step aes (corr_of (cw_at i)) (abit i) (anode aes i) = step aes' (corr_of (cw_at i)) (abit i) (anode aes i)).
  { unfold step. destruct (abit i); rewrite ?HLa, ?HRa; reflexivity. }
  rewrite Hst. unfold gnode. apply generate_next_back; auto.
  - apply even_lowest. rewrite Forall_forall in Heven. apply Heven. eapply nth_error_In. apply cw_at_nth. auto.
  - apply Hsb. lia.
  - rewrite HLa. apply hash_left_b. auto.
  - rewrite HRa. apply hash_right_b. auto.
  - unfold gen_values. replace (S i - 1)%nat with i by lia.
    destruct (tree_to_hierarchy d i) as [h|] eqn:Et.
    + apply (tree_to_hierarchy_some d W) in Et. destruct Et as [Hh Et].
      destruct (value_back h Hh) as (b & Hb & HV). unfold at_or_ub. rewrite Hb. cbn [bind].
      rewrite Et in HV. specialize (HV _ eq_refl).
      assert (Hkv : kv h = cw_values (cw_at i)).
      { unfold kv. rewrite Et, (cw_at_nth i Hi). destruct (Nat.ltb_spec h (nlevels d - 1)); auto.
        exfalso. assert (h = (nlevels d - 1)%nat) by lia. subst h. unfold n_cws in Hi. rewrite (wf_levels _ W) in Hi. lia. }
      rewrite <- Hkv, <- HV. f_equal. unfold shr128.
      destruct (Nat.ltb_spec (ld_last d - ld d h) 128) as [E|E]; auto.
      symmetry. apply N.bits_inj. intros k. rewrite N.shiftr_spec', N.bits_0. apply testbit_high; auto. lia.
    + rewrite (Hnone i (cw_at i) (cw_at_nth i Hi) Et). reflexivity.
Qed.

Lemma loop_back : forall m i, (i + m = n_cws)%nat ->
  generate_loop aes' d m (S i) alpha beta (gnode i) = Ok (gnode n_cws, skipn i cws).
Proof using HND Hacc Hcws Hdisj Heven Hnb Hnone Hsb Hvalues W aes alpha beta cws d f klast nb sA sb.
  induction m as [|m IH]; intros i Hi; cbn [generate_loop].
  - replace i with n_cws by lia. rewrite skipn_all2 by lia. reflexivity.
  - rewrite next_back by lia. cbn [bind]. rewrite IH by lia. cbn [bind].
    assert (HS : skipn i cws = cw_at i :: skipn (S i) cws).
    { clear - Hi Hcws. assert (HN : nth_error cws i = Some (cw_at i)) by (apply nth_error_nth'; lia).
      revert HN. generalize (cw_at i) as c. generalize cws as l. clear.
      induction i as [|i IH]; intros [|a l] c HN; cbn in *; try discriminate; [congruence|]. apply IH; auto. }
    rewrite HS. reflexivity.
Qed.

Definition keyA : dkey := {| k_seed := Some sA; k_cws := cws; k_party := if f then 1 else 0; k_last := klast |}.
Definition keyB : dkey := {| k_seed := Some (sb 0); k_cws := cws; k_party := if f then 0 else 1; k_last := klast |}.
Theorem keys_back :
  generate_keys aes' d alpha beta (if f then sb 0%nat else sA) (if f then sA else sb 0%nat)
  = Ok (if f then (keyB, keyA) else (keyA, keyB)).
Proof using HND Hacc Hcws Hdisj Heven Hnb Hnone Hsb Hvalues W aes alpha beta cws d f klast nb sA sb.
  destruct (accepted_level d alpha beta W Hacc) as (Ha & HL & HV & Hld & _).
  unfold generate_keys. rewrite HL, Nat.eqb_refl, HV. cbn [check bind].
  replace (2 ^ N.of_nat (ld_last d) <=? alpha) with false by (symmetry; apply N.leb_gt; auto).
  rewrite andb_false_r. cbn [negb check bind].
  pose proof (loop_back n_cws 0 eq_refl) as HB. cbn [skipn] in HB. unfold gnode at 1 in HB.
  change (anode aes 0) with (sA, f) in HB.
  match goal with |- context [generate_loop aes' d _ 1 alpha beta ?g] =>
    replace g with (mkg f (sA, f) (sb 0%nat, negb (snd (sA, f)))) by (destruct f; reflexivity) end.
  fold n_cws. rewrite HB. cbn [bind]. pose proof (wf_pos _ W) as Hpos.
  destruct (value_back (nlevels d - 1) ltac:(lia)) as (b & Hb & HVb).
  assert (HlastT : h2t d (nlevels d - 1) = n_cws) by (unfold n_cws; rewrite (wf_levels _ W); lia).
  rewrite HlastT in HVb. specialize (HVb (gnode n_cws) eq_refl).
  replace (ld_last d - ld d (nlevels d - 1))%nat with 0%nat in HVb by (unfold ld_last; lia).
  change (N.of_nat 0) with 0 in HVb. rewrite N.shiftr_0_r in HVb.
  unfold at_or_ub. rewrite Hb. cbn [bind]. rewrite HVb. cbn [bind].
  unfold kv. rewrite Nat.ltb_irrefl. unfold keyA, keyB. destruct f; reflexivity.
Qed.

(** Party B's nodes with the programmed cipher. *)
Lemma bnode_back : forall i, (i <= n_cws)%nat ->
  walk aes' (map corr_of (firstn i cws)) (N.shiftr alpha (N.of_nat (ld_last d - i))) (sb 0%nat, negb f)
  = (sb i, negb (snd (anode aes i))).
Proof using HND Hacc Hcws Hdisj Heven Hnb Hnone Hsb Hvalues W aes alpha beta cws d f klast nb sA sb.
  destruct (accepted_level d alpha beta W Hacc) as (Ha & _).
  induction i as [|i IH]; intros Hi; [reflexivity|].
  rewrite (firstn_S_nth _ _ _ _ (cw_at_nth i Hi)), map_app, walk_app. cbn [map walk length].
  pose proof n_cws_ld. 
  rewrite N.shiftr_shiftr. replace (N.of_nat (ld_last d - S i) + N.of_nat 1) with (N.of_nat (ld_last d - i)) by lia.
  rewrite IH by lia. rewrite N.shiftr_spec'. change (N.of_nat 0 + N.of_nat (ld_last d - S i)) with (N.of_nat (ld_last d - S i)).
  pose proof (next_back i Hi) as HN.
  assert (Hbits : g_bit0 (gnode i) <> g_bit1 (gnode i)).
  { unfold gnode. destruct f; cbn [mkg g_bit0 g_bit1 snd]; destruct (snd (anode aes i)); discriminate. }
  apply generate_next_inv in HN; auto. cbv zeta in HN. destruct HN as (_ & H0 & H1 & _).
  unfold gnode, g_node0, g_node1 in H0, H1. destruct f; cbn [mkg g_seed0 g_seed1 g_bit0 g_bit1 fst snd] in H0, H1.
  - exact H0.
  - exact H1.
Qed.

Lemma aes'_bound : (forall k x, x < 2 ^ 128 -> aes k x < 2 ^ 128) -> (forall i, (i <= n_cws)%nat -> sb i < 2 ^ 128) ->
  Forall (fun cw => cw_seed cw < 2 ^ 128) cws -> forall k x, x < 2 ^ 128 -> aes' k x < 2 ^ 128.
Proof using Hcws Hnb Hnone Hsb Hvalues aes alpha beta cws d f klast nb sA sb.
  intros Haes Hs Hc k x Hx. unfold aes', program.
  destruct (find _ tbl) as [e|] eqn:E; [|apply Haes; auto]. apply find_some in E. destruct E as [E _].
  apply lxor_bound; auto.
  assert (Hcw : forall i, (i < n_cws)%nat -> cw_seed (cw_at i) < 2 ^ 128).
  { intros i Hi. rewrite Forall_forall in Hc. apply Hc. eapply nth_error_In. apply cw_at_nth. auto. }
  assert (Hhash : forall k y, hash aes k y < 2 ^ 128) by (intros; apply lxor_bound; [apply Haes, sigma_bound|apply sigma_bound]).
  assert (Hwb : forall y b, y < 2 ^ 128 -> with_bit y b < 2 ^ 128).
  { intros y b Hy. apply lxor_bound; auto. destruct b; reflexivity. }
  apply in_app_or in E. destruct E as [E|E]; apply in_flat_map in E.
  - destruct E as (i & Hi & E). apply in_seq in Hi. pose proof (Hcw i ltac:(lia)). pose proof (Hs (S i) ltac:(lia)).
    destruct E as [E|[E|[]]]; subst e; cbn [snd]; unfold need_l, need_r, need_left, need_right, corr_of; apply Hwb; cbn [fst];
      destruct (abit i), (negb (snd (anode aes i))); auto using lxor_bound, clear_bound.
  - destruct E as (h & _ & E). apply in_map_iff in E. destruct E as (j & <- & _). apply block_at_lt.
Qed.
End Program.
