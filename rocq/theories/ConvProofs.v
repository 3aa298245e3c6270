(** Proofs about proto and byte conversions of value types. *)
From Coq Require Import List NArith ZArith Lia Bool ZifyBool ZifyNat ZifyN.
From Verif Require Import Base ListUtil ValueTypesModel ValueTypesSpec ValueTypesProofs.
Import ListNotations.
Ltac Zify.zify_post_hook ::= Z.div_mod_to_equations.
Open Scope N_scope.

(** ** Value.Integer *)

Lemma vinteger_round_trip : forall x, x < P128 ->
  vinteger_to_uint128 (uint128_to_vinteger x) = Ok x.
Proof.
  intros x Hx. unfold uint128_to_vinteger.
  destruct (hi64 x =? 0) eqn:E; cbn [vinteger_to_uint128]; f_equal;
    unfold hi64, lo64, mk128 in *; lia.
Qed.

Lemma vinteger_to_uint128_bound : forall i x, vinteger_to_uint128 i = Ok x -> x < P128.
Proof.
  intros [|v|h l] x H; cbn [vinteger_to_uint128] in H; inv H; unfold lo64, mk128; lia.
Qed.

Lemma vinteger_to_uint128_encodes : forall i x,
  vinteger_to_uint128 i = Ok x <-> encodes i x.
Proof.
  intros [|v|h l] x; cbn [vinteger_to_uint128 encodes]; split; intros H; try easy.
  - inv H. reflexivity.
  - subst. reflexivity.
  - inv H. reflexivity.
  - subst. reflexivity.
Qed.

Lemma vinteger_not_crash : forall i, safe (vinteger_to_uint128 i).
Proof. intros [| |]; cbn; split; discriminate. Qed.

Lemma uint128_to_ok : forall w x y, uint128_to w x = Ok y ->
  y = x mod 2 ^ w /\ (w = 128 \/ lo64 x < 2 ^ w).
Proof.
  intros w x y H. unfold uint128_to in H.
  destruct (negb (w =? 128) && (2 ^ w - 1 <? lo64 x)) eqn:E; inv H. split; auto.
  pose proof (pow2_pos w). lia.
Qed.

Lemma uint128_to_small : forall w x, x < 2 ^ w -> uint128_to w x = Ok x.
Proof.
  intros w x H. unfold uint128_to, lo64.
  assert (Hm : 2 ^ w - 1 <? x mod P64 = false).
  { apply N.ltb_ge. pose proof (N.mod_le x P64 ltac:(lia)). lia. }
  rewrite Hm, andb_false_r. rewrite N.mod_small by auto. reflexivity.
Qed.

Lemma cwidth_le128 : forall w, cwidth_ok w = true -> 2 ^ w <= P128.
Proof. intros w H. widths H; cbn; lia. Qed.

(** ** FromValue / ToValue *)

Lemma from_value_list_reprs : forall ts ps vs,
  Forall (fun t => forall p v, repr t p v -> cty_ok t = true -> from_value t p = Ok v) ts ->
  Forall (fun t => cty_ok t = true) ts ->
  reprs ts ps vs -> from_value_list from_value ts ps = Ok vs.
Proof.
  induction ts as [|t ts IH]; intros ps vs HF Hok H; inv H; cbn [from_value_list]; auto.
  inversion HF as [|? ? Hh Ht]; inversion Hok; subst. erewrite Hh by eauto. cbn [bind].
  erewrite IH by eauto. reflexivity.
Qed.

Lemma reprs_length : forall ts ps vs, reprs ts ps vs ->
  length ps = length ts /\ length vs = length ts.
Proof.
  induction ts; intros ps vs H; inversion H as [|? ? ? ? ? ? H1 H2]; subst;
    cbn [length]; auto.
  apply IHts in H2. lia.
Qed.

Lemma repr_inv : forall t p v, repr t p v ->
  match t with
  | TInt w => exists i x, p = PVInteger i /\ v = VNum x /\ encodes i x /\ x < 2 ^ w
  | TMod w m => exists i x, p = PVIntModN i /\ v = VNum x /\ encodes i x /\ x < m
  | TXor w => exists i x, p = PVXor i /\ v = VNum x /\ encodes i x /\ x < 2 ^ w
  | TTup ts => exists ps vs, p = PVTuple ps /\ v = VTup vs /\ reprs ts ps vs
  end.
Proof. intros t p v H. destruct H; eauto 8. Qed.

(** FromValue accepts every proto that denotes a value of the type. *)
Lemma from_value_complete : forall t p v,
  repr t p v -> cty_ok t = true -> from_value t p = Ok v.
Proof.
  induction t as [w|w m|w|ts IH] using cty_ind'; intros p v H Hok;
    apply repr_inv in H; cbv beta iota in H.
  - destruct H as (i & x & -> & -> & He & Hx). cbn [from_value].
    apply vinteger_to_uint128_encodes in He. rewrite He. cbn [bind].
    rewrite uint128_to_small by auto. reflexivity.
  - destruct H as (i & x & -> & -> & He & Hx). cbn [from_value].
    apply vinteger_to_uint128_encodes in He. rewrite He. cbn [bind].
    destruct (m <=? x) eqn:E; [lia|].
    apply cty_ok_mod in Hok. rewrite (N.mod_small x (2 ^ w)) by lia.
    rewrite N.mod_small by auto. reflexivity.
  - destruct H as (i & x & -> & -> & He & Hx). cbn [from_value].
    apply vinteger_to_uint128_encodes in He. rewrite He. cbn [bind].
    rewrite uint128_to_small by auto. reflexivity.
  - destruct H as (ps & vs & -> & -> & Hr). cbn [from_value].
    pose proof (reprs_length _ _ _ Hr) as [HL _]. rewrite HL, Nat.eqb_refl. cbn [negb].
    apply cty_ok_tup in Hok. destruct Hok as [_ Hok].
    erewrite from_value_list_reprs by eauto. reflexivity.
Qed.

Lemma encodes_to_vinteger : forall x, x < P128 -> encodes (uint128_to_vinteger x) x.
Proof.
  intros. apply vinteger_to_uint128_encodes, vinteger_round_trip; auto.
Qed.

Lemma to_value_repr : forall t v, cty_ok t = true -> wt t v = true -> repr t (to_value t v) v.
Proof.
  induction t as [w|w m|w|ts IH] using cty_ind'; intros v Hok H.
  - destruct v as [n|vs]; try discriminate. cbn [wt to_value] in *. apply N.ltb_lt in H.
    constructor; auto. apply encodes_to_vinteger.
    pose proof (cwidth_le128 w Hok). lia.
  - destruct v as [n|vs]; try discriminate. apply cty_ok_mod in Hok.
    destruct Hok as (Hw & H1 & H2). cbn [wt to_value] in *. apply N.ltb_lt in H.
    constructor; auto. apply encodes_to_vinteger.
    pose proof (cwidth_le128 w Hw). lia.
  - destruct v as [n|vs]; try discriminate. cbn [wt to_value] in *. apply N.ltb_lt in H.
    constructor; auto. apply encodes_to_vinteger.
    pose proof (cwidth_le128 w Hok). lia.
  - destruct v as [n|vs]; try discriminate.
    apply cty_ok_tup in Hok. destruct Hok as [_ Hok].
    cbn [wt to_value] in *. constructor. revert vs H.
    induction ts as [|t ts IHts]; intros [|v vs]; cbn [all2 zip2]; try discriminate.
    + constructor.
    + intros H. apply andb_true_iff in H. destruct H. fcons IH IHh IHt. fcons Hok Hokh Hokt. constructor; auto.
Qed.

Lemma from_to_value : forall t v, cty_ok t = true -> wt t v = true ->
  from_value t (to_value t v) = Ok v.
Proof. intros. apply from_value_complete; auto using to_value_repr. Qed.

(** Whatever FromValue returns is a value of the type. *)
Lemma from_value_wt : forall t p v, cty_ok t = true -> from_value t p = Ok v -> wt t v = true.
Proof.
  induction t as [w|w m|w|ts IH] using cty_ind'; intros p v Hok H; cbn [from_value] in H.
  - destruct p; try discriminate. bind_inv H. bind_inv H. inv H.
    apply uint128_to_ok in Hb0. destruct Hb0 as [-> _]. cbn [wt].
    apply N.ltb_lt, N.mod_lt. pose proof (pow2_pos w). lia.
  - destruct p; try discriminate. bind_inv H. destruct (m <=? a) eqn:E; inv H.
    cbn [wt]. apply cty_ok_mod in Hok. apply N.ltb_lt, N.mod_lt. lia.
  - bind_inv H. bind_inv H. inv H.
    apply uint128_to_ok in Hb0. destruct Hb0 as [-> _]. cbn [wt].
    apply N.ltb_lt, N.mod_lt. pose proof (pow2_pos w). lia.
  - destruct p; try discriminate.
    destruct (negb (length els =? length ts)%nat) eqn:E; try discriminate.
    bind_inv H. inv H. cbn [wt]. apply cty_ok_tup in Hok. destruct Hok as [_ Hok].
    clear E. revert els a Hb.
    induction ts as [|t ts IHts]; intros [|p ps] a Hb; cbn [from_value_list] in Hb;
      try discriminate; try (inv Hb; reflexivity).
    bind_inv Hb. bind_inv Hb. inv Hb. fcons IH IHh IHt. fcons Hok Hokh Hokt. cbn [all2].
    apply andb_true_iff. split; eauto.
Qed.

Lemma from_value_list_safe : forall ts ps, length ps = length ts ->
  Forall (fun t => forall p, safe (from_value t p)) ts ->
  safe (from_value_list from_value ts ps).
Proof.
  induction ts as [|t ts IH]; intros [|p ps] HL HF; cbn [from_value_list length] in *;
    try discriminate; auto using ok_safe.
  fcons HF IHh IHt. apply bind_safe; auto. intros. apply bind_safe; auto using ok_safe.
Qed.

Lemma from_value_safe : forall t p, safe (from_value t p).
Proof.
  assert (HU : forall w x, safe (uint128_to w x)).
  { intros. unfold uint128_to. destruct (_ && _); auto using ok_safe, err_safe. }
  induction t as [w|w m|w|ts IH] using cty_ind'; intros p; cbn [from_value].
  - destruct p; auto using err_safe. apply bind_safe; auto using vinteger_not_crash.
    intros. apply bind_safe; auto using ok_safe.
  - destruct p; auto using err_safe. apply bind_safe; auto using vinteger_not_crash.
    intros. destruct (m <=? a); auto using ok_safe, err_safe.
  - apply bind_safe; auto using vinteger_not_crash.
    intros. apply bind_safe; auto using ok_safe.
  - destruct p; auto using err_safe.
    destruct (length els =? length ts)%nat eqn:E; cbn [negb]; auto using err_safe.
    apply bind_safe; auto using ok_safe.
    apply from_value_list_safe; auto. apply Nat.eqb_eq; auto.
Qed.

Lemma from_value_err : forall t p c, from_value t p = Err c -> c = INVALID_ARGUMENT.
Proof.
  assert (HV : forall i c0, vinteger_to_uint128 i = Err c0 -> c0 = INVALID_ARGUMENT)
    by (intros [| |] c0 H; inv H; auto).
  assert (HU : forall w x c, uint128_to w x = Err c -> c = INVALID_ARGUMENT).
  { intros w x c. unfold uint128_to. destruct (_ && _); congruence. }
  assert (HB : forall A B (r : res A) (f : A -> res B) c, bind r f = Err c ->
            r = Err c \/ exists a, r = Ok a /\ f a = Err c).
  { intros A B [] f c0 H; cbn [bind] in H; try discriminate; eauto; inv H; auto. }
  induction t as [w|w m|w|ts IH] using cty_ind'; intros p c H; cbn [from_value] in H.
  - destruct p; try congruence. apply HB in H. destruct H as [H|(a & _ & H)]; eauto.
    apply HB in H. destruct H as [H|(y & _ & H)]; eauto. discriminate.
  - destruct p; try congruence. apply HB in H. destruct H as [H|(a & _ & H)]; eauto.
    destruct (m <=? a); congruence.
  - apply HB in H. destruct H as [H|(a & _ & H)]; eauto.
    apply HB in H. destruct H as [H|(y & _ & H)]; eauto. discriminate.
  - destruct p; try congruence.
    destruct (negb (length els =? length ts)%nat); try congruence.
    apply HB in H. destruct H as [H|(a & _ & H)]; [|discriminate].
    revert els H. induction ts as [|t ts IHts]; intros [|p ps] H;
      cbn [from_value_list] in H; try discriminate.
    fcons IH IHh IHt. apply HB in H. destruct H as [H|(a & _ & H)]; eauto.
    apply HB in H. destruct H as [H|(b & _ & H)]; eauto. discriminate.
Qed.

(** [small p]: every integer in the Value proto is below 2^64. *)
Fixpoint all_small (p : pvalue) : bool :=
  match p with
  | PVInteger i | PVIntModN i | PVXor i =>
      match vinteger_to_uint128 i with Ok x => x <? P64 | _ => true end
  | PVTuple ps => forallb all_small ps
  | PVUnset => true
  end.
(** Types all of whose integers are 128 bits wide or IntModN. *)
Fixpoint wide (t : cty) : bool :=
  match t with
  | TInt w | TXor w => w =? 128
  | TMod _ _ => true
  | TTup ts => forallb wide ts
  end.

Lemma from_value_sound : forall t p v, cty_ok t = true ->
  from_value t p = Ok v -> wide t = true \/ all_small p = true -> repr t p v.
Proof.
  induction t as [w|w m|w|ts IH] using cty_ind'; intros p v Hok H Hs; cbn [from_value] in H.
  - destruct p; try discriminate. bind_inv H. bind_inv H. inv H.
    pose proof (vinteger_to_uint128_bound _ _ Hb).
    cbn [wide all_small] in Hs. rewrite Hb in Hs.
    apply uint128_to_ok in Hb0. destruct Hb0 as [-> HR].
    assert (a < 2 ^ w).
    { destruct (N.eq_dec w 128) as [->|Hn]; [change (2 ^ 128) with P128; lia|].
      destruct HR as [|HR]; [congruence|]. destruct Hs as [Hs|Hs]; [lia|].
      unfold lo64 in HR. rewrite N.mod_small in HR by lia. auto. }
    rewrite N.mod_small by auto.
    constructor; auto. apply vinteger_to_uint128_encodes; auto.
  - destruct p; try discriminate. bind_inv H. destruct (m <=? a) eqn:E; inv H.
    apply cty_ok_mod in Hok.
    rewrite (N.mod_small a (2 ^ w)) by lia. rewrite N.mod_small by lia.
    constructor; [|lia]. apply vinteger_to_uint128_encodes; auto.
  - destruct p as [|?|?|?|i]; cbn [vinteger_to_uint128 bind] in H; try discriminate.
    bind_inv H. bind_inv H. inv H.
    pose proof (vinteger_to_uint128_bound _ _ Hb).
    cbn [wide all_small] in Hs. rewrite Hb in Hs.
    apply uint128_to_ok in Hb0. destruct Hb0 as [-> HR].
    assert (a < 2 ^ w).
    { destruct (N.eq_dec w 128) as [->|Hn]; [change (2 ^ 128) with P128; lia|].
      destruct HR as [|HR]; [congruence|]. destruct Hs as [Hs|Hs]; [lia|].
      unfold lo64 in HR. rewrite N.mod_small in HR by lia. auto. }
    rewrite N.mod_small by auto.
    constructor; auto. apply vinteger_to_uint128_encodes; auto.
  - destruct p; try discriminate.
    destruct (negb (length els =? length ts)%nat) eqn:E; try discriminate.
    bind_inv H. inv H. constructor. apply cty_ok_tup in Hok. destruct Hok as [_ Hok].
    cbn [wide all_small] in Hs.
    assert (HL : length els = length ts) by lia. clear E.
    revert els a Hb Hs HL.
    induction ts as [|t ts IHts]; intros [|p ps] a Hb Hs HL; cbn [from_value_list] in Hb;
      try discriminate; try (inv Hb; constructor).
    bind_inv Hb. bind_inv Hb. inv Hb. fcons IH IHh IHt. fcons Hok Hokh Hokt. cbn [forallb] in Hs.
    rewrite !andb_true_iff in Hs. constructor; [apply IHh|apply IHts]; auto; tauto.
Qed.

(** ** ValidateValue *)

Lemma validate_integer_value_encodes : forall i x w, encodes i x -> x < 2 ^ w ->
  validate_integer_value i (Z.of_N w) = Ok tt.
Proof.
  intros i x w He Hx. unfold validate_integer_value.
  destruct (Z.of_N w <? 128)%Z eqn:E; auto.
  apply vinteger_to_uint128_encodes in He. rewrite He. cbn [bind]. rewrite N2Z.id.
  destruct (2 ^ w <=? x) eqn:E2; auto. lia.
Qed.

Lemma validate_value_repr : forall t p v, cty_ok t = true ->
  repr t p v -> validate_value (to_value_type t) p = Ok tt.
Proof.
  induction t as [w|w m|w|ts IH] using cty_ind'; intros p v Hok H;
    apply repr_inv in H; cbv beta iota in H.
  - destruct H as (i & x & -> & -> & He & Hx). cbn [to_value_type validate_value].
    eapply validate_integer_value_encodes; eauto.
  - destruct H as (i & x & -> & -> & He & Hx). cbn [to_value_type validate_value].
    apply cty_ok_mod in Hok. destruct Hok as (Hw & H0 & H4).
    erewrite validate_integer_value_encodes by (eauto; lia). cbn [bind].
    apply vinteger_to_uint128_encodes in He. rewrite He. cbn [bind].
    pose proof (cwidth_le128 w Hw).
    rewrite vinteger_round_trip by lia. cbn [bind].
    destruct (m <=? x) eqn:E; auto. lia.
  - destruct H as (i & x & -> & -> & He & Hx). cbn [to_value_type validate_value].
    eapply validate_integer_value_encodes; eauto.
  - destruct H as (ps & vs & -> & -> & Hr). cbn [to_value_type validate_value].
    pose proof (reprs_length _ _ _ Hr) as [HL _]. rewrite map_length, HL, Nat.eqb_refl.
    cbn [negb]. apply cty_ok_tup in Hok. destruct Hok as [_ Hok].
    clear HL. revert ps vs Hr. induction ts as [|t ts IHts]; intros ps vs HR;
      inversion HR; subst; cbn [map validate_value_list]; auto.
    apply Forall_cons_iff in IH. apply Forall_cons_iff in Hok.
    destruct IH as [Ha Hb]. destruct Hok as [Hc Hd].
    erewrite Ha by eauto. cbn [bind]. eapply IHts; eauto.
Qed.

Lemma validate_value_sound : forall t p, cty_ok t = true ->
  validate_value (to_value_type t) p = Ok tt ->
  from_value t p = Err INVALID_ARGUMENT \/ exists v, from_value t p = Ok v /\ repr t p v.
Proof.
  assert (HIV : forall i w x, cwidth_ok w = true ->
     validate_integer_value i (Z.of_N w) = Ok tt -> vinteger_to_uint128 i = Ok x -> x < 2 ^ w).
  { intros i w x Hw H Hi. unfold validate_integer_value in H. rewrite Hi in H.
    rewrite N2Z.id in H. pose proof (vinteger_to_uint128_bound _ _ Hi).
    destruct (Z.of_N w <? 128)%Z eqn:E.
    - cbn [bind] in H. destruct (2 ^ w <=? x) eqn:E2; [discriminate|lia].
    - assert (w = 128) as -> by (widths Hw; lia). change (2 ^ 128) with P128. lia. }
  assert (HVC : forall i, (exists x, vinteger_to_uint128 i = Ok x) \/
                          vinteger_to_uint128 i = Err INVALID_ARGUMENT).
  { intros [| |]; cbn; eauto. }
  induction t as [w|w m|w|ts IH] using cty_ind'; intros p Hok H;
    cbn [to_value_type validate_value] in H.
  - destruct p; try discriminate. cbn [from_value].
    destruct (HVC i) as [(x & Hx)|Hx]; rewrite Hx; cbn [bind]; auto.
    right. rewrite uint128_to_small by eauto. cbn [bind]. eexists; split; eauto.
    constructor; eauto. apply vinteger_to_uint128_encodes; auto.
  - apply cty_ok_mod in Hok. destruct Hok as (Hw & H0 & H4).
    bind_inv H. bind_inv H. bind_inv H.
    pose proof (cwidth_le128 w Hw). rewrite vinteger_round_trip in Hb1 by lia. inv Hb1.
    destruct (a1 <=? a0) eqn:E; [discriminate|].
    destruct p as [|?|?|i|?]; cbn [vinteger_to_uint128] in Hb0; try discriminate.
    right. cbn [from_value]. rewrite Hb0. cbn [bind]. rewrite E.
    rewrite (N.mod_small a0 (2 ^ w)) by lia. rewrite N.mod_small by lia.
    eexists; split; eauto. constructor; [|lia]. apply vinteger_to_uint128_encodes; auto.
  - destruct p; try discriminate. cbn [from_value].
    destruct (HVC i) as [(x & Hx)|Hx]; rewrite Hx; cbn [bind]; auto.
    right. rewrite uint128_to_small by eauto. cbn [bind]. eexists; split; eauto.
    constructor; eauto. apply vinteger_to_uint128_encodes; auto.
  - destruct p; try discriminate. rewrite map_length in H. cbn [from_value].
    destruct (negb (length els =? length ts)%nat) eqn:E; try discriminate.
    apply cty_ok_tup in Hok. destruct Hok as [_ Hok].
    assert (HL : length els = length ts) by lia. clear E.
    assert (HH : from_value_list from_value ts els = Err INVALID_ARGUMENT \/
                 exists vs, from_value_list from_value ts els = Ok vs /\ reprs ts els vs).
    { revert els H HL. induction ts as [|t ts IHts]; intros [|p ps] H HL;
        cbn [map validate_value_list from_value_list length] in *; try discriminate.
      - right. eexists; split; eauto. constructor.
      - bind_inv H. destruct a. fcons IH IHh IHt. fcons Hok Hokh Hokt.
        destruct (IHh p) as [->|(v & Hv & Hr)]; auto. rewrite Hv. cbn [bind].
        destruct (IHts IHt Hokt ps) as [->|(vs & Hvs & Hrs)]; auto.
        rewrite Hvs. right. eexists; split; cbn [bind]; eauto. constructor; auto. }
    destruct HH as [->|(vs & -> & Hr)]; cbn [bind]; auto.
    right. eexists; split; eauto. constructor; auto.
Qed.

(** ** Bytes consumed by the conversions *)

(** Bytes of all leaves of [t]. *)
Fixpoint leaf_bytes (t : cty) : nat :=
  match t with
  | TInt w | TXor w | TMod w _ => nbytes w
  | TTup ts => fold_right (fun t acc => leaf_bytes t + acc)%nat 0%nat ts
  end.
(** Bytes of the last leaf. *)
Fixpoint last_bytes (t : cty) : nat :=
  match t with
  | TInt w | TXor w | TMod w _ => nbytes w
  | TTup ts => (fix go (ts : list cty) : nat :=
      match ts with
      | [] => 0%nat
      | [t] => last_bytes t
      | _ :: ts' => go ts'
      end) ts
  end.
Definition last_of (ts : list cty) : nat := last_bytes (TTup ts).

Lemma last_of_cons : forall t t' ts, last_of (t :: t' :: ts) = last_of (t' :: ts).
Proof. reflexivity. Qed.

Lemma last_le_leaf : forall t, (last_bytes t <= leaf_bytes t)%nat.
Proof.
  induction t as [w|w m|w|ts IH] using cty_ind'; cbn [last_bytes leaf_bytes]; auto.
  change (last_of ts <= leaf_bytes (TTup ts))%nat.
  induction ts as [|t [|t' ts] IHts].
  - cbn. lia.
  - fcons IH IHh IHt. cbn [leaf_bytes fold_right]. change (last_of [t]) with (last_bytes t). lia.
  - fcons IH IHh IHt. rewrite last_of_cons. cbn [leaf_bytes fold_right] in *.
    specialize (IHts IHt). lia.
Qed.

Lemma nbytes_width : forall w, cwidth_ok w = true -> 8 * N.of_nat (nbytes w) = w.
Proof. intros w H. widths H; reflexivity. Qed.
Lemma nbytes_le16 : forall w, cwidth_ok w = true -> (1 <= nbytes w <= 16)%nat.
Proof. intros w H. widths H; split; apply Nat.leb_le; reflexivity. Qed.

Lemma total_bits_leaf : forall t, cty_ok t = true -> total_bits t = 8 * N.of_nat (leaf_bytes t).
Proof.
  induction t as [w|w m|w|ts IH] using cty_ind'; intros Hok.
  - symmetry. apply nbytes_width. auto.
  - symmetry. apply nbytes_width. apply cty_ok_mod in Hok. tauto.
  - symmetry. apply nbytes_width. auto.
  - apply cty_ok_tup in Hok. destruct Hok as [_ Hok].
    cbn [total_bits leaf_bytes].
    induction ts as [|t ts IHts]; cbn [fold_right]; auto.
    fcons IH IHh IHt. fcons Hok Hokh Hokt. rewrite IHts, IHh by auto. lia.
Qed.

Lemma element_size_leaf : forall t, cty_ok t = true -> element_size t = leaf_bytes t.
Proof.
  intros t H. unfold element_size. rewrite total_bits_leaf by auto. lia.
Qed.

Lemma leaf_bytes_pos : forall t, cty_ok t = true -> (1 <= leaf_bytes t)%nat.
Proof.
  induction t as [w|w m|w|ts IH] using cty_ind'; intros Hok; cbn [leaf_bytes].
  - apply nbytes_le16; auto.
  - apply cty_ok_mod in Hok. apply nbytes_le16; tauto.
  - apply nbytes_le16; auto.
  - apply cty_ok_tup in Hok. destruct Hok as [Hne Hok].
    destruct ts as [|t ts]; [congruence|]. cbn [fold_right]. fcons IH IHh IHt. fcons Hok Hokh Hokt.
    specialize (IHh Hokh). lia.
Qed.

Lemma substr_ok : forall b pos n, (pos <= length b)%nat ->
  substr b pos n = Ok (firstn n (skipn pos b)).
Proof. intros. unfold substr. destruct (Nat.leb_spec pos (length b)); auto. lia. Qed.
Lemma substr_from_ok : forall b pos, (pos <= length b)%nat ->
  substr_from b pos = Ok (skipn pos b).
Proof. intros. unfold substr_from. destruct (Nat.leb_spec pos (length b)); auto. lia. Qed.

Lemma int_from_bytes_ok : forall w b, cwidth_ok w = true -> length b = nbytes w ->
  exists x, int_from_bytes w b = Ok x /\ x < 2 ^ w /\ x = le_decode b.
Proof.
  intros w b Hw HL. unfold int_from_bytes. rewrite HL, Nat.eqb_refl. cbn [abort_unless bind].
  eexists; split; eauto. split; auto.
  pose proof (le_decode_bound b). rewrite HL in H.
  change 256 with (2 ^ 8) in H. rewrite <- N.pow_mul_r, nbytes_width in H by auto. auto.
Qed.

Lemma direct_list_ok : forall ts b off,
  Forall (fun t => forall b, cty_ok t = true -> is_direct t = true ->
            length b = leaf_bytes t ->
            exists v, direct_from_bytes t b = Ok v /\ wt t v = true) ts ->
  Forall (fun t => cty_ok t = true) ts -> forallb is_direct ts = true ->
  (off + fold_right (fun t acc => leaf_bytes t + acc) 0 ts <= length b)%nat ->
  exists vs, direct_list direct_from_bytes ts b off = Ok vs /\ all2 wt ts vs = true.
Proof.
  induction ts as [|t ts IH]; intros b off HF Hok Hd HL; cbn [direct_list].
  - eexists; split; eauto.
  - fcons HF IHh IHt. fcons Hok Hokh Hokt. cbn [forallb fold_right] in *. apply andb_true_iff in Hd.
    destruct Hd as [Hd1 Hd2].
    rewrite substr_ok by lia. cbn [bind]. rewrite element_size_leaf by auto.
    destruct (IHh (firstn (leaf_bytes t) (skipn off b))) as (v & Hv & Hw); auto.
    { rewrite firstn_length, skipn_length. lia. }
    rewrite Hv. cbn [bind].
    destruct (IH b (off + leaf_bytes t)%nat) as (vs & Hvs & Hws); auto; [lia|].
    rewrite Hvs. cbn [bind]. eexists; split; eauto. cbn [all2]. rewrite Hw, Hws. auto.
Qed.

Lemma direct_ok : forall t b, cty_ok t = true -> is_direct t = true ->
  length b = leaf_bytes t ->
  exists v, direct_from_bytes t b = Ok v /\ wt t v = true.
Proof.
  induction t as [w|w m|w|ts IH] using cty_ind'; intros b Hok Hd HL.
  - destruct (int_from_bytes_ok w b) as (x & Hx & Hb & _); auto.
    cbn [direct_from_bytes]. rewrite Hx. eexists; split; [reflexivity|].
    cbn [wt]. apply N.ltb_lt; auto.
  - discriminate.
  - destruct (int_from_bytes_ok w b) as (x & Hx & Hb & _); auto.
    cbn [direct_from_bytes]. rewrite Hx. eexists; split; [reflexivity|].
    cbn [wt]. apply N.ltb_lt; auto.
  - pose proof (total_bits_leaf _ Hok) as HT.
    cbn [direct_from_bytes]. replace (total_bits (TTup ts) <=? 8 * N.of_nat (length b))
      with true by (symmetry; apply N.leb_le; lia).
    cbn [abort_unless bind]. apply cty_ok_tup in Hok. destruct Hok as [_ Hok].
    destruct (direct_list_ok ts b 0) as (vs & Hvs & Hws); auto.
    { cbn [leaf_bytes] in HL. lia. }
    rewrite Hvs. cbn [bind]. eexists; split; eauto.
Qed.

Lemma sample_update_step : forall w (rem : bytes), cwidth_ok w = true ->
  (nbytes w <= length rem)%nat ->
  exists x, substr rem 0 (nbytes w) = Ok (firstn (nbytes w) rem) /\
    int_from_bytes w (firstn (nbytes w) rem) = Ok x /\
    substr_from rem (nbytes w) = Ok (skipn (nbytes w) rem).
Proof.
  intros w rem Hw HL.
  destruct (int_from_bytes_ok w (firstn (nbytes w) rem)) as (x & Hx & _); auto.
  { rewrite firstn_length. lia. }
  exists x. rewrite substr_ok, substr_from_ok by lia. auto.
Qed.

Lemma sample_true_ok : forall t block rem, cty_ok t = true ->
  (leaf_bytes t <= length rem)%nat ->
  exists v block', sample_and_update t true block rem
     = Ok (v, (block', skipn (leaf_bytes t) rem)) /\ wt t v = true.
Proof.
  induction t as [w|w m|w|ts IH] using cty_ind'; intros block rem Hok HL.
  - destruct (sample_update_step w rem) as (x & H1 & H2 & H3); auto.
    cbn [sample_and_update]. rewrite H1. cbn [bind]. rewrite H2. cbn [bind].
    rewrite H3. cbn [bind]. do 2 eexists. split; [reflexivity|].
    cbn [wt]. apply N.ltb_lt, N.mod_lt. pose proof (pow2_pos w). lia.
  - apply cty_ok_mod in Hok. destruct Hok as (Hw & Hm & _).
    destruct (sample_update_step w rem) as (x & H1 & H2 & H3); auto.
    cbn [sample_and_update]. rewrite H1. cbn [bind]. rewrite H2. cbn [bind].
    rewrite H3. cbn [bind]. do 2 eexists. split; [reflexivity|].
    cbn [wt]. apply N.ltb_lt, N.mod_lt. lia.
  - destruct (sample_update_step w rem) as (x & H1 & H2 & H3); auto.
    cbn [sample_and_update]. rewrite H1. cbn [bind]. rewrite H2. cbn [bind].
    rewrite H3. cbn [bind]. do 2 eexists. split; [reflexivity|].
    cbn [wt]. apply N.ltb_lt, N.mod_lt. pose proof (pow2_pos w). lia.
  - cbn [sample_and_update]. apply cty_ok_tup in Hok. destruct Hok as [_ Hok].
    cbn [leaf_bytes] in *.
    assert (HH : forall n c, exists vs block',
      sample_list sample_and_update n true ts c block rem =
        Ok (vs, (block', skipn (fold_right (fun t acc => leaf_bytes t + acc)%nat 0%nat ts) rem))
      /\ all2 wt ts vs = true).
    { revert block rem HL. induction ts as [|t ts IHts]; intros block rem HL n c;
        cbn [sample_list fold_right].
      - do 2 eexists. split; reflexivity.
      - cbn [fold_right] in HL. fcons IH IHh IHt. fcons Hok Hokh Hokt. cbn [orb].
        destruct (IHh block rem) as (v & b' & Hv & Hw); auto; [lia|].
        rewrite Hv. cbn [bind].
        destruct (IHts IHt Hokt b' (skipn (leaf_bytes t) rem)) with (n := n) (c := S c)
          as (vs & b'' & Hvs & Hws).
        { rewrite skipn_length. lia. }
        rewrite Hvs. cbn [bind]. do 2 eexists. split.
        + f_equal. f_equal. f_equal. rewrite skipn_skipn'. reflexivity.
        + cbn [all2]. rewrite Hw, Hws. auto. }
    destruct (HH (length ts) 0%nat) as (vs & b' & Hvs & Hws).
    rewrite Hvs. cbn [bind]. do 2 eexists. split; eauto.
Qed.

Lemma sample_false_ok : forall t block rem, cty_ok t = true ->
  (leaf_bytes t - last_bytes t <= length rem)%nat ->
  exists v st, sample_and_update t false block rem = Ok (v, st) /\ wt t v = true.
Proof.
  induction t as [w|w m|w|ts IH] using cty_ind'; intros block rem Hok HL.
  - cbn [sample_and_update]. do 2 eexists. split; [reflexivity|].
    cbn [wt]. apply N.ltb_lt, N.mod_lt. pose proof (pow2_pos w). lia.
  - apply cty_ok_mod in Hok. destruct Hok as (Hw & Hm & _).
    cbn [sample_and_update]. do 2 eexists. split; [reflexivity|].
    cbn [wt]. apply N.ltb_lt, N.mod_lt. lia.
  - cbn [sample_and_update]. do 2 eexists. split; [reflexivity|].
    cbn [wt]. apply N.ltb_lt, N.mod_lt. pose proof (pow2_pos w). lia.
  - cbn [sample_and_update]. apply cty_ok_tup in Hok. destruct Hok as [_ Hok].
    change (last_bytes (TTup ts)) with (last_of ts) in HL. cbn [leaf_bytes] in HL.
    assert (HH : forall c, exists vs st,
      sample_list sample_and_update (length ts + c) false ts c block rem = Ok (vs, st)
      /\ all2 wt ts vs = true).
    { revert block rem HL. induction ts as [|t ts IHts]; intros block rem HL c;
        cbn [sample_list].
      - do 2 eexists. split; reflexivity.
      - fcons IH IHh IHt. fcons Hok Hokh Hokt. cbn [orb]. destruct ts as [|t' ts].
        + replace (S c <? length [t] + c)%nat with false
            by (symmetry; apply Nat.ltb_ge; cbn [length]; lia).
          cbn [fold_right] in HL. change (last_of [t]) with (last_bytes t) in HL.
          destruct (IHh block rem) as (v & [b' r'] & Hv & Hw); auto; [lia|].
          rewrite Hv. cbn [bind sample_list]. do 2 eexists. split; [reflexivity|].
          cbn [all2]. rewrite Hw. auto.
        + replace (S c <? length (t :: t' :: ts) + c)%nat with true
            by (symmetry; apply Nat.ltb_lt; cbn [length]; lia).
          rewrite last_of_cons in HL.
          assert (HB : (last_of (t' :: ts) <= leaf_bytes (TTup (t' :: ts)))%nat)
            by apply (last_le_leaf (TTup (t' :: ts))).
          cbn [leaf_bytes] in HB.
          remember (t' :: ts) as tl. cbn [fold_right] in HL.
          destruct (sample_true_ok t block rem) as (v & b' & Hv & Hw); auto; [lia|].
          rewrite Hv. cbn [bind].
          destruct (IHts IHt Hokt b' (skipn (leaf_bytes t) rem)) with (c := S c)
            as (vs & st & Hvs & Hws).
          { rewrite skipn_length. lia. }
          cbn [length]. replace (S (length tl) + c)%nat with (length tl + S c)%nat by lia.
          rewrite Hvs. cbn [bind]. do 2 eexists. split; [reflexivity|].
          cbn [all2]. rewrite Hw, Hws. auto. }
    destruct (HH 0%nat) as (vs & st & Hvs & Hws). rewrite Nat.add_0_r in Hvs.
    rewrite Hvs. destruct st. cbn [bind]. do 2 eexists. split; eauto.
Qed.

(** Enough bytes for ConvertBytesToArrayOf<T>. *)
Definition enough_bytes (t : cty) (n : nat) : Prop :=
  if is_direct t then (elements_per_block t * leaf_bytes t <= n)%nat
  else (16 + (leaf_bytes t - last_bytes t) <= n)%nat.

Lemma epb_pos : forall t, cty_ok t = true -> (1 <= elements_per_block t)%nat.
Proof.
  intros t Hok. unfold elements_per_block.
  destruct (is_direct t); [|lia]. destruct (total_bits t <=? 128) eqn:E; [|lia].
  pose proof (total_bits_leaf t Hok). pose proof (leaf_bytes_pos t Hok).
  assert (1 <= 128 / total_bits t); [|lia].
  apply N.div_le_lower_bound; lia.
Qed.

Lemma convert_bytes_ok : forall t b, cty_ok t = true -> enough_bytes t (length b) ->
  exists vs, convert_bytes t b = Ok vs /\ length vs = elements_per_block t /\
    Forall (fun v => wt t v = true) vs.
Proof.
  intros t b Hok HE. unfold enough_bytes in HE. unfold convert_bytes, from_bytes.
  destruct (is_direct t) eqn:Hd.
  - rewrite element_size_leaf by auto.
    destruct (Nat.leb_spec (elements_per_block t * leaf_bytes t) (length b)); [|lia].
    cbn [abort_unless bind].
    assert (HF : forall i, In i (seq 0 (elements_per_block t)) ->
      exists v, (sub <- substr b (i * leaf_bytes t) (leaf_bytes t);; direct_from_bytes t sub)
                = Ok v /\ wt t v = true).
    { intros i Hi. apply in_seq in Hi. rewrite substr_ok by nia. cbn [bind].
      apply direct_ok; auto. rewrite firstn_length, skipn_length. nia. }
    assert (HM : forall l, (forall i, In i l -> In i (seq 0 (elements_per_block t))) ->
      exists vs, mapM (fun i => sub <- substr b (i * leaf_bytes t) (leaf_bytes t);;
                       direct_from_bytes t sub) l = Ok vs /\
                 Forall (fun v => wt t v = true) vs).
    { induction l as [|i l IH]; intros Hl; cbn [mapM].
      - eexists; split; eauto.
      - destruct (HF i) as (v & Hv & Hw); [apply Hl; left; auto|]. rewrite Hv. cbn [bind].
        destruct IH as (vs & Hvs & Hws); [intros; apply Hl; right; auto|].
        rewrite Hvs. cbn [bind]. eexists; split; eauto. }
    destruct (HM (seq 0 (elements_per_block t))) as (vs & Hvs & Hws); auto.
    eexists; split; eauto. split; auto.
    apply mapM_length in Hvs. rewrite seq_length in Hvs. auto.
  - rewrite substr_ok by lia. cbn [bind skipn].
    destruct (int_from_bytes_ok 128 (firstn 16 b)) as (x & Hx & _); auto.
    { rewrite firstn_length. change (nbytes 128) with 16%nat. lia. }
    rewrite Hx. cbn [bind]. rewrite substr_from_ok by lia. cbn [bind].
    destruct (sample_false_ok t x (skipn 16 b)) as (v & st & Hv & Hw); auto.
    { rewrite skipn_length. lia. }
    rewrite Hv. cbn [bind]. eexists; split; [reflexivity|]. split; [|auto].
    unfold elements_per_block. rewrite Hd. reflexivity.
Qed.
