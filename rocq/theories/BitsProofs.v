(** BitsNeeded reserves enough pseudorandom bytes. *)
From Coq Require Import List NArith ZArith Lia Bool ZifyBool ZifyNat ZifyN.
From Verif Require Import Base ListUtil ValueTypesModel ValueTypesSpec ValueTypesProofs
  ConvProofs.
Import ListNotations.
Ltac Zify.zify_post_hook ::= Z.div_mod_to_equations.
Open Scope N_scope.

(** Types without nested tuples that contain IntModN, and where tuple elements come
    before IntModN elements. *)
Definition is_leaf (t : cty) : bool := match t with TTup _ => false | _ => true end.
Definition is_mod (t : cty) : bool := match t with TMod _ _ => true | _ => false end.
(** A leading run of directly convertible elements, then leaves. *)
Fixpoint direct_then_leaves (ts : list cty) : bool :=
  match ts with
  | [] => true
  | t :: ts' => (is_direct t && direct_then_leaves ts') || forallb is_leaf ts
  end.
Definition bits_shape (t : cty) : bool :=
  match t with TTup ts => direct_then_leaves ts | _ => true end.

Lemma to_value_type_mod : forall t, is_int_mod_n (to_value_type t) = is_mod t.
Proof. destruct t; reflexivity. Qed.

Lemma bits_count_direct : forall ts f a b, forallb is_direct ts = true ->
  bits_count (map to_value_type ts) f a b = Ok (f, a, (b + Z.of_nat (length ts))%Z).
Proof.
  induction ts as [|t ts IH]; intros f a b H; cbn [map bits_count length forallb] in *.
  - do 2 f_equal. lia.
  - apply andb_true_iff in H. destruct H as [Hd Ht]. rewrite to_value_type_mod.
    replace (is_mod t) with false by (destruct t; cbn in *; congruence).
    rewrite IH by auto. do 2 f_equal. lia.
Qed.

Section Fops.
Variable F : fops.

Lemma int_or_ub_inv : forall z z', int_or_ub z = Ok z' -> z' = z /\ (-2147483648 <= z <= 2147483647)%Z.
Proof.
  intros z z' H. unfold int_or_ub in H. destruct (_ && _) eqn:E; inv H. split; [auto|].
  apply andb_true_iff in E. lia.
Qed.
Lemma int_or_ub_ok : forall z, (-2147483648 <= z <= 2147483647)%Z -> int_or_ub z = Ok z.
Proof.
  intros z H. unfold int_or_ub. replace (-2147483648 <=? z)%Z with true by lia.
  replace (z <=? 2147483647)%Z with true by lia. reflexivity.
Qed.
Lemma int_or_ub_ub : forall z, (2147483647 < z)%Z -> int_or_ub z = UB.
Proof.
  intros z H. unfold int_or_ub. replace (z <=? 2147483647)%Z with false by lia.
  rewrite andb_false_r. reflexivity.
Qed.
Lemma int_or_ub_bind : forall x y, (0 <= x)%Z -> (0 <= y)%Z ->
  bind (int_or_ub x) (fun x' => int_or_ub (x' + y)%Z) = int_or_ub (x + y)%Z.
Proof.
  intros x y Hx Hy. destruct (Z.leb_spec x 2147483647).
  - rewrite int_or_ub_ok by lia. reflexivity.
  - rewrite !int_or_ub_ub by lia. reflexivity.
Qed.

Lemma bits_other_direct : forall ts sec acc, (0 <= acc <= 2147483647)%Z ->
  Forall (fun t => forall sec, cty_ok t = true -> is_direct t = true ->
     bits_needed F (to_value_type t) sec = int_or_ub (8 * Z.of_nat (leaf_bytes t))%Z) ts ->
  Forall (fun t => cty_ok t = true) ts -> forallb is_direct ts = true ->
  bits_other (fun el => bits_needed F el sec) (map to_value_type ts) (length ts) acc
  = int_or_ub (acc + 8 * Z.of_nat (fold_right (fun t acc => leaf_bytes t + acc) 0 ts)%nat)%Z.
Proof.
  induction ts as [|t ts IH]; intros sec acc Ha HF Hok Hd; cbn [map bits_other length fold_right].
  - rewrite int_or_ub_ok by lia. f_equal. lia.
  - fcons HF IHh IHt. fcons Hok Hokh Hokt. cbn [forallb] in Hd.
    apply andb_true_iff in Hd. destruct Hd as [Hd1 Hd2].
    rewrite IHh by auto.
    destruct (Z.leb_spec (8 * Z.of_nat (leaf_bytes t)) 2147483647).
    2:{ rewrite !int_or_ub_ub by lia. reflexivity. }
    rewrite int_or_ub_ok by lia. cbn [bind].
    destruct (Z.leb_spec (acc + 8 * Z.of_nat (leaf_bytes t)) 2147483647).
    2:{ rewrite !int_or_ub_ub by lia. reflexivity. }
    rewrite int_or_ub_ok by lia. cbn [bind]. rewrite IH by (auto; lia). f_equal. lia.
Qed.

Lemma bits_needed_direct_int : forall t sec, cty_ok t = true -> is_direct t = true ->
  bits_needed F (to_value_type t) sec = int_or_ub (8 * Z.of_nat (leaf_bytes t))%Z.
Proof.
  induction t as [w|w m|w|ts IH] using cty_ind'; intros sec Hok Hd.
  - cbn [to_value_type bits_needed leaf_bytes].
    pose proof (nbytes_width w Hok). pose proof (nbytes_le16 w Hok).
    rewrite int_or_ub_ok by lia. f_equal. lia.
  - discriminate.
  - cbn [to_value_type bits_needed leaf_bytes].
    pose proof (nbytes_width w Hok). pose proof (nbytes_le16 w Hok).
    rewrite int_or_ub_ok by lia. f_equal. lia.
  - apply cty_ok_tup in Hok. destruct Hok as [_ Hok].
    cbn [to_value_type bits_needed leaf_bytes is_direct] in *.
    rewrite bits_count_direct by auto. cbn [bind].
    replace (Z.to_nat (0 + Z.of_nat (length ts))) with (length ts) by lia.
    rewrite bits_other_direct by (auto; lia). cbn [bind].
    set (s := fold_right _ _ _). destruct (Z.leb_spec (0 + 8 * Z.of_nat s) 2147483647).
    + rewrite (int_or_ub_ok (0 + _)) by lia. reflexivity.
    + rewrite (int_or_ub_ub (0 + _)) by lia. cbn [bind]. rewrite int_or_ub_ub by lia. reflexivity.
Qed.
Lemma bits_needed_direct : forall t sec z, cty_ok t = true -> is_direct t = true ->
  bits_needed F (to_value_type t) sec = Ok z -> z = (8 * Z.of_nat (leaf_bytes t))%Z.
Proof.
  intros t sec z H1 H2 H. rewrite bits_needed_direct_int in H by auto. apply int_or_ub_inv in H. tauto.
Qed.

(** Number of IntModN / other elements; bytes of the others. *)
Fixpoint nmods (ts : list cty) : nat :=
  match ts with [] => 0 | t :: ts' => (if is_mod t then 1 else 0) + nmods ts' end.
Fixpoint nothers (ts : list cty) : nat :=
  match ts with [] => 0 | t :: ts' => (if is_mod t then 0 else 1) + nothers ts' end.
Fixpoint other_bytes (ts : list cty) : nat :=
  match ts with [] => 0 | t :: ts' => (if is_mod t then 0 else leaf_bytes t) + other_bytes ts' end.
(** What BitsNeeded charges for an element (in bytes). *)
Definition charge (t : cty) : nat := if is_mod t then 16 else leaf_bytes t.
Fixpoint charges (ts : list cty) (k : nat) : nat :=
  match k, ts with S k', t :: ts' => charge t + charges ts' k' | _, _ => 0 end.

Lemma bits_count_spec : forall ts f a b f' a' b',
  bits_count (map to_value_type ts) f a b = Ok (f', a', b') ->
  (a' = a + Z.of_nat (nmods ts) /\ b' = b + Z.of_nat (nothers ts))%Z /\
  match f with
  | None => match find is_mod ts with
            | None => f' = None
            | Some t => f' = Some (to_value_type t)
            end
  | Some _ => f' = f
  end /\
  (forall g, f' = Some g -> Forall (fun t => is_mod t = true ->
     to_value_type t = g \/ value_types_are_equal (to_value_type t) g = Ok true) ts).
Proof.
  induction ts as [|t ts IH]; intros f a b f' a' b' H; cbn [map bits_count nmods nothers find] in *.
  - inv H. repeat split; try lia; auto. destruct f'; auto.
  - rewrite to_value_type_mod in H. destruct (is_mod t) eqn:E.
    + destruct f as [g|].
      * bind_inv H. destruct a0; [|discriminate]. apply IH in H.
        destruct H as ([Ha Hb0] & Hf & HF). repeat split; try lia; auto.
        subst f'. intros g' Hg. inv Hg. constructor; auto.
      * apply IH in H. destruct H as ([Ha Hb0] & Hf & HF). repeat split; try lia; auto.
        subst f'. intros g' Hg. constructor; auto. intros _. left. congruence.
    + apply IH in H. destruct H as ([Ha Hb0] & Hf & HF). repeat split; try lia; auto.
      intros g' Hg. constructor; auto. congruence.
Qed.

Lemma charges_lower : forall ts k,
  Forall (fun t => cty_ok t = true) ts -> forallb is_leaf ts = true -> (k <= length ts)%nat ->
  (other_bytes ts + 16 * k <= charges ts k + 16 * nothers ts)%nat.
Proof.
  induction ts as [|t ts IH]; intros k Hok Hl Hk; cbn [length] in Hk.
  - assert (k = 0)%nat as -> by lia. cbn. lia.
  - fcons Hok Hokh Hokt. cbn [forallb] in Hl. apply andb_true_iff in Hl. destruct Hl as [Hl1 Hl2].
    assert (HB : is_mod t = false -> (leaf_bytes t <= 16)%nat).
    { intros Hm. destruct t; try discriminate; cbn [leaf_bytes];
        apply nbytes_le16; auto. }
    destruct k as [|k].
    + specialize (IH 0%nat Hokt Hl2 ltac:(lia)). cbn [charges other_bytes nothers] in *.
      assert (charges ts 0 = 0)%nat by (destruct ts; auto).
      destruct (is_mod t); [|specialize (HB eq_refl)]; lia.
    + specialize (IH k Hokt Hl2 ltac:(lia)). cbn [charges other_bytes nothers].
      unfold charge. destruct (is_mod t); lia.
Qed.

Lemma counts_length : forall ts, (nmods ts + nothers ts = length ts)%nat.
Proof. induction ts; cbn [nmods nothers length]; auto. destruct (is_mod a); lia. Qed.

Lemma direct_not_mod : forall t, is_direct t = true -> is_mod t = false.
Proof. destruct t; cbn; congruence. Qed.

Lemma charges_app_direct : forall ds ls k, forallb is_direct ds = true ->
  charges (ds ++ ls) (length ds + k) = (other_bytes ds + charges ls k)%nat.
Proof.
  induction ds as [|d ds IH]; intros ls k H; auto.
  cbn [forallb] in H. apply andb_true_iff in H. destruct H as [H1 H2].
  cbn [app length Nat.add charges other_bytes]. unfold charge.
  rewrite direct_not_mod, IH by auto. lia.
Qed.

Lemma nmods_app : forall a b, nmods (a ++ b) = (nmods a + nmods b)%nat.
Proof. induction a; intros; cbn [app nmods]; auto. rewrite IHa. lia. Qed.
Lemma nothers_app : forall a b, nothers (a ++ b) = (nothers a + nothers b)%nat.
Proof. induction a; intros; cbn [app nothers]; auto. rewrite IHa. lia. Qed.
Lemma other_bytes_app : forall a b, other_bytes (a ++ b) = (other_bytes a + other_bytes b)%nat.
Proof. induction a; intros; cbn [app other_bytes]; auto. rewrite IHa. lia. Qed.

Lemma direct_counts : forall ds, forallb is_direct ds = true ->
  nmods ds = 0%nat /\ nothers ds = length ds.
Proof.
  induction ds as [|d ds IH]; intros H; auto. cbn [forallb] in H.
  apply andb_true_iff in H. destruct H as [H1 H2]. cbn [nmods nothers length].
  rewrite direct_not_mod by auto. destruct (IH H2). lia.
Qed.

Lemma charges_app : forall a b k, (k <= length a)%nat -> charges (a ++ b) k = charges a k.
Proof.
  induction a; intros b k H; cbn [length] in H.
  - assert (k = 0)%nat as -> by lia. destruct b; reflexivity.
  - destruct k; [reflexivity|]. cbn [app charges]. rewrite IHa by lia. reflexivity.
Qed.

Lemma split_shape : forall ts, direct_then_leaves ts = true ->
  exists ds ls, ts = ds ++ ls /\ forallb is_direct ds = true /\ forallb is_leaf ls = true.
Proof.
  induction ts as [|t ts IH]; intros H.
  - exists [], []. auto.
  - cbn [direct_then_leaves] in H. apply orb_true_iff in H. destruct H as [H|H].
    + apply andb_true_iff in H. destruct H as [H1 H2].
      destruct (IH H2) as (ds & ls & -> & Hd & Hl).
      exists (t :: ds), ls. cbn [forallb app]. rewrite H1. auto.
    + exists [], (t :: ts). auto.
Qed.

Lemma fold_leaf_bytes : forall ts b,
  Forall (fun t => is_mod t = true -> leaf_bytes t = b) ts ->
  fold_right (fun t acc => leaf_bytes t + acc)%nat 0%nat ts = (other_bytes ts + b * nmods ts)%nat.
Proof.
  induction ts as [|t ts IH]; intros b H; cbn [fold_right other_bytes nmods]; [lia|].
  fcons H Hh Ht. rewrite (IH b) by auto. destruct (is_mod t); [rewrite Hh by auto|]; lia.
Qed.

Lemma last_of_app : forall ts t, last_of (ts ++ [t]) = last_bytes t.
Proof.
  induction ts as [|x ts IH]; intros t; auto.
  cbn [app]. destruct (ts ++ [t]) as [|y l] eqn:E.
  - destruct ts; discriminate.
  - rewrite last_of_cons, <- E. apply IH.
Qed.

(** The arithmetic core: what a flat tuple consumes is covered by the charge. *)
Lemma tuple_enough : forall ts b,
  Forall (fun t => cty_ok t = true) ts ->
  direct_then_leaves ts = true ->
  (1 <= nmods ts)%nat -> (b <= 16)%nat ->
  Forall (fun t => is_mod t = true -> leaf_bytes t = b) ts ->
  (16 + (leaf_bytes (TTup ts) - last_bytes (TTup ts)) <=
   16 + b * (nmods ts - 1) + charges ts (nothers ts))%nat.
Proof.
  intros ts b Hok Hs Hn Hb Hm.
  destruct (split_shape ts Hs) as (ds & ls & -> & Hd & Hl).
  destruct (direct_counts ds Hd) as [Hd1 Hd2].
  rewrite nmods_app, Hd1 in *. rewrite nothers_app, Hd2, charges_app_direct by auto.
  cbn [leaf_bytes]. rewrite (fold_leaf_bytes _ b) by auto.
  rewrite other_bytes_app, nmods_app, Hd1.
  apply Forall_app in Hok. destruct Hok as [_ Hok].
  apply Forall_app in Hm. destruct Hm as [_ Hm].
  destruct (exists_last (l := ls)) as (ls' & l & ->).
  { intros ->. cbn in Hn. lia. }
  change (last_bytes (TTup (ds ++ ls' ++ [l]))) with (last_of (ds ++ ls' ++ [l])).
  rewrite app_assoc, last_of_app.
  pose proof Hok as Hok0. pose proof Hl as Hl0.
  apply Forall_app in Hok. destruct Hok as [Hok Hokl].
  apply Forall_app in Hm. destruct Hm as [_ Hm]. inversion Hm as [|? ? Hml _]; subst.
  rewrite forallb_app in Hl. apply andb_true_iff in Hl. destruct Hl as [Hl Hll].
  cbn [forallb] in Hll. rewrite andb_true_r in Hll.
  assert (HLL : last_bytes l = leaf_bytes l) by (destruct l; try discriminate; reflexivity).
  rewrite !nmods_app, !nothers_app, !other_bytes_app in *. cbn [nmods nothers other_bytes] in *.
  destruct (is_mod l) eqn:E.
  - rewrite HLL, Hml by auto.
    pose proof (charges_lower (ls' ++ [l]) (nothers ls') Hok0 Hl0) as HC.
    rewrite app_length in HC. pose proof (counts_length ls').
    rewrite !nothers_app, !other_bytes_app in HC. cbn [nothers other_bytes length] in HC.
    rewrite E in HC. specialize (HC ltac:(lia)). cbn [Nat.add] in *. rewrite !Nat.add_0_r in *. nia.
  - pose proof (counts_length ls').
    pose proof (charges_lower ls' (nothers ls' + 1)%nat Hok Hl ltac:(lia)) as HC.
    replace (nothers ls' + (1 + 0))%nat with (nothers ls' + 1)%nat by lia.
    rewrite charges_app by lia. nia.
Qed.

Lemma bits_other_charges : forall ts sec k z,
  Forall (fun t => cty_ok t = true) ts -> direct_then_leaves ts = true ->
  forall acc, bits_other (fun el => bits_needed F el sec) (map to_value_type ts) k acc = Ok z ->
  (z = acc + 8 * Z.of_nat (charges ts k))%Z.
Proof.
  induction ts as [|t ts IH]; intros sec k z Hok Hs acc H; destruct k as [|k];
    cbn [map bits_other charges] in *; try (inv H; lia); try discriminate.
  bind_inv H. bind_inv H. apply int_or_ub_inv in Hb0. destruct Hb0 as [-> _]. fcons Hok Hokh Hokt.
  assert (Hs2 : direct_then_leaves ts = true /\ (is_direct t = true \/ is_leaf t = true)).
  { cbn [direct_then_leaves forallb] in Hs. apply orb_true_iff in Hs.
    rewrite !andb_true_iff in Hs. destruct Hs as [[? ?]|[? HH]]; auto. split; auto.
    clear -HH. induction ts; auto. cbn [direct_then_leaves]. rewrite HH.
    apply orb_true_r. }
  destruct Hs2 as [Hs2 Ht]. apply IH in H; auto. subst z. unfold charge.
  destruct (is_direct t) eqn:Hd.
  - apply bits_needed_direct in Hb; auto. subst a. rewrite direct_not_mod by auto. lia.
  - destruct t; try discriminate; cbn in Ht; try (destruct Ht; discriminate).
    cbn [to_value_type bits_needed] in Hb. bind_inv Hb. bind_inv Hb. inv Hb.
    unfold get_num_bytes_required in Hb1. bind_inv Hb1. inv Hb1. cbn [is_mod].
    change (1 - 1)%Z with 0%Z. rewrite Z.mul_0_r. lia.
Qed.

(** BitsNeeded's number of blocks is enough for every accepted type of this shape. *)
Lemma bits_needed_enough : forall t sec z,
  cty_ok t = true -> bits_shape t = true ->
  bits_needed F (to_value_type t) sec = Ok z ->
  enough_bytes t (16 * Z.to_nat ((z + 127) / 128)).
Proof.
  intros t sec z Hok Hs H. unfold enough_bytes. destruct (is_direct t) eqn:Hd.
  - apply bits_needed_direct in H; auto. subst z. unfold elements_per_block.
    rewrite Hd, total_bits_leaf by auto. pose proof (leaf_bytes_pos t Hok).
    destruct (8 * N.of_nat (leaf_bytes t) <=? 128) eqn:E; [|lia].
    assert (N.of_nat (leaf_bytes t) * (128 / (8 * N.of_nat (leaf_bytes t))) <= 16); [|nia].
    pose proof (N.mul_div_le 128 (8 * N.of_nat (leaf_bytes t)) ltac:(lia)). lia.
  - destruct t as [w|w m|ts|w]; try discriminate.
    + apply cty_ok_mod in Hok. destruct Hok as (Hw & _).
      cbn [to_value_type bits_needed] in H. bind_inv H. bind_inv H. inv H.
      unfold get_num_bytes_required in Hb0. bind_inv Hb0. inv Hb0.
      cbn [leaf_bytes last_bytes]. change (1 - 1)%Z with 0%Z. rewrite Z.mul_0_r.
      change (Z.to_nat ((8 * (16 + 0) + 127) / 128)) with 1%nat. lia.
    + apply cty_ok_tup in Hok. destruct Hok as [_ Hok]. cbn [bits_shape is_direct] in *.
      cbn [to_value_type bits_needed] in H. bind_inv H. destruct a as [[first nmod] nother].
      bind_inv H. bind_inv H. apply int_or_ub_inv in H. destruct H as [-> _].
      apply bits_count_spec in Hb. destruct Hb as ([-> ->] & Hf & HF). cbv beta iota in Hf.
      replace (Z.to_nat (0 + Z.of_nat (nothers ts))) with (nothers ts) in Hb0 by lia.
      apply bits_other_charges in Hb0; auto. subst a.
      destruct (find is_mod ts) as [tm|] eqn:Hfind.
      2:{ (* no IntModN at all: direct *)
        exfalso. enough (forallb is_direct ts = true) by congruence. clear -Hfind Hs.
        induction ts as [|t ts IH]; auto. cbn [find direct_then_leaves forallb] in *.
        destruct (is_mod t) eqn:E; [discriminate|].
        assert (direct_then_leaves ts = true -> forallb is_direct ts = true) by auto.
        apply orb_true_iff in Hs. rewrite !andb_true_iff in *. destruct Hs as [[? ?]|[? ?]].
        - auto.
        - split; [destruct t; cbn in *; congruence|]. apply H. clear -H1.
          destruct ts; auto. cbn [direct_then_leaves]. rewrite H1. apply orb_true_r. }
      subst first. apply find_some in Hfind. destruct Hfind as [HIn Hism].
      destruct tm as [|wm mm| |]; try discriminate. clear Hism.
      cbn [to_value_type] in Hb1. bind_inv Hb1. bind_inv Hb1. apply int_or_ub_inv in Hb1. destruct Hb1 as [-> _].
      match goal with H : get_num_bytes_required _ _ _ _ _ = Ok _ |- _ =>
        unfold get_num_bytes_required in H; bind_inv H; inv H end.
      assert (Hwm : cwidth_ok wm = true).
      { rewrite Forall_forall in Hok. apply Hok, cty_ok_mod in HIn. tauto. }
      assert (Hn : (1 <= nmods ts)%nat).
      { clear -HIn. induction ts; [destruct HIn|]. cbn [nmods]. destruct HIn as [->|HIn].
        - cbn [is_mod]. lia.
        - specialize (IHts HIn). lia. }
      pose proof (tuple_enough ts (nbytes wm) Hok Hs Hn) as HT.
      assert (Hw16 : (nbytes wm <= 16)%nat) by (apply nbytes_le16; auto).
      specialize (HT Hw16).
      assert (Hall : Forall (fun t => is_mod t = true -> leaf_bytes t = nbytes wm) ts).
      { specialize (HF _ eq_refl). rewrite Forall_forall in HF |- *. intros t Ht Hm.
        destruct (HF t Ht Hm) as [He|He]; destruct t; try discriminate;
          cbn [to_value_type] in He.
        - inv He. assert (w = wm) by lia. subst. reflexivity.
        - cbn [value_types_are_equal] in He. bind_inv He. bind_inv He. inv He.
          apply andb_true_iff in H0. cbn [leaf_bytes]. f_equal. lia. }
      specialize (HT Hall).
      assert (8 * Z.of_nat (nbytes wm) = Z.of_N wm)%Z.
      { pose proof (nbytes_width wm Hwm). lia. }
      replace ((Z.of_N wm + 7) / 8)%Z with (Z.of_nat (nbytes wm)) by lia. nia.
Qed.

End Fops.
