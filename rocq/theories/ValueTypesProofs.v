(** Proofs about value types: group laws, conversions. *)
From Coq Require Import List NArith ZArith Lia Bool ZifyBool ZifyNat ZifyN.
From Verif Require Import Base ListUtil ValueTypesModel ValueTypesSpec.
Import ListNotations.
Ltac Zify.zify_post_hook ::= Z.div_mod_to_equations.
Open Scope N_scope.

Section CtyInd.
  Variable P : cty -> Prop.
  Hypothesis HI : forall w, P (TInt w).
  Hypothesis HM : forall w m, P (TMod w m).
  Hypothesis HX : forall w, P (TXor w).
  Hypothesis HT : forall ts, Forall P ts -> P (TTup ts).
  Fixpoint cty_ind' (t : cty) : P t :=
    match t with
    | TInt w => HI w
    | TMod w m => HM w m
    | TXor w => HX w
    | TTup ts => HT ts ((fix go ts : Forall P ts :=
        match ts with
        | [] => Forall_nil P
        | t :: ts' => Forall_cons t (cty_ind' t) (go ts')
        end) ts)
    end.
End CtyInd.

Section PtypeInd.
  Variable P : ptype -> Prop.
  Hypothesis HU : P PTUnset.
  Hypothesis HI : forall w, P (PTInteger w).
  Hypothesis HM : forall w m, P (PTIntModN w m).
  Hypothesis HX : forall w, P (PTXor w).
  Hypothesis HT : forall ts, Forall P ts -> P (PTTuple ts).
  Fixpoint ptype_ind' (t : ptype) : P t :=
    match t with
    | PTUnset => HU
    | PTInteger w => HI w
    | PTIntModN w m => HM w m
    | PTXor w => HX w
    | PTTuple ts => HT ts ((fix go ts : Forall P ts :=
        match ts with
        | [] => Forall_nil P
        | t :: ts' => Forall_cons t (ptype_ind' t) (go ts')
        end) ts)
    end.
End PtypeInd.

Lemma cwidth_cases : forall w, cwidth_ok w = true ->
  w = 8 \/ w = 16 \/ w = 32 \/ w = 64 \/ w = 128.
Proof.
  intros w H. unfold cwidth_ok in H. cbn [existsb] in H. lia.
Qed.
Ltac widths H :=
  apply cwidth_cases in H; destruct H as [->|[->|[->|[->| ->]]]].

Lemma pow2_pos : forall w, 0 < 2 ^ w.
Proof. intros. apply N.neq_0_lt_0, N.pow_nonzero. lia. Qed.

Lemma cty_ok_tup : forall ts, cty_ok (TTup ts) = true ->
  ts <> [] /\ Forall (fun t => cty_ok t = true) ts.
Proof.
  intros ts H. cbn [cty_ok] in H. apply andb_true_iff in H. destruct H as [H1 H2].
  split.
  - intros ->. discriminate.
  - apply Forall_forall. intros t Ht. rewrite forallb_forall in H2. auto.
Qed.

Lemma cty_ok_mod : forall w m, cty_ok (TMod w m) = true ->
  cwidth_ok w = true /\ 0 < m /\ m < 2 ^ w.
Proof.
  intros w m H. cbn [cty_ok] in H. rewrite !andb_true_iff in H.
  destruct H as [[H1 H2] H3]. apply N.ltb_lt in H2, H3. auto.
Qed.

(** ** Group laws *)

Lemma mod_sub_spec : forall w m v a, cwidth_ok w = true -> 0 < m < 2 ^ w ->
  v < m -> a <= m ->
  mod_sub w m v a = (v + (m - a)) mod m.
Proof.
  intros w m v a Hw Hm Hv Ha. unfold mod_sub.
  assert (Hp : 2 ^ w <= P128) by (widths Hw; cbn; lia).
  destruct (a <=? v) eqn:E; apply N.leb_le in E || apply N.leb_gt in E.
  - replace (v + (m - a)) with ((v - a) + 1 * m) by lia.
    rewrite N.mod_add by lia. symmetry. apply N.mod_small. lia.
  - replace (m + P128 - a + v) with ((m - a + v) + 1 * P128) by lia.
    rewrite N.mod_add by lia.
    rewrite (N.mod_small (m - a + v) P128) by lia.
    rewrite (N.mod_small (m - a + v) (2 ^ w)) by lia.
    rewrite N.mod_small by lia. lia.
Qed.

Lemma mod_add_spec : forall w m v a, cwidth_ok w = true -> 0 < m < 2 ^ w ->
  v < m -> a < m ->
  mod_add w m v a = (v + a) mod m.
Proof.
  intros w m v a Hw Hm Hv Ha. unfold mod_add.
  assert (Hp : 2 ^ w <= P128) by (widths Hw; cbn; lia).
  replace (m + P128 - a) with ((m - a) + 1 * P128) by lia.
  rewrite N.mod_add by lia.
  rewrite (N.mod_small (m - a) P128) by lia.
  rewrite (N.mod_small (m - a) (2 ^ w)) by lia.
  rewrite mod_sub_spec by (auto; lia).
  f_equal. lia.
Qed.

Ltac tup_destr v :=
  destruct v as [?|v]; cbn [wt]; try discriminate.

Lemma lxor_bound : forall x y w, x < 2 ^ w -> y < 2 ^ w -> N.lxor x y < 2 ^ w.
Proof.
  intros x y w Hx Hy.
  destruct (N.eq_dec (N.lxor x y) 0) as [E|E]; [rewrite E; apply pow2_pos|].
  apply N.log2_lt_pow2; [lia|].
  eapply N.le_lt_trans; [apply N.log2_lxor|].
  apply N.max_lub_lt.
  - destruct (N.eq_dec x 0) as [->|Hx0].
    + cbn. destruct w; [|lia]. change (2^0) with 1 in *.
      assert (y = 0) by lia. subst. exfalso. apply E. reflexivity.
    + apply N.log2_lt_pow2; lia.
  - destruct (N.eq_dec y 0) as [->|Hy0].
    + cbn. destruct w; [|lia]. change (2^0) with 1 in *.
      assert (x = 0) by lia. subst. exfalso. apply E. reflexivity.
    + apply N.log2_lt_pow2; lia.
Qed.

Lemma vadd_wt : forall t a b, cty_ok t = true -> wt t a = true -> wt t b = true ->
  wt t (vadd t a b) = true.
Proof.
  induction t as [w|w m|w|ts IH] using cty_ind'; intros a b Hok Ha Hb.
  - destruct a, b; try discriminate. cbn [wt vadd] in *.
    apply N.ltb_lt. apply N.mod_lt. pose proof (pow2_pos w). lia.
  - apply cty_ok_mod in Hok. destruct Hok as (Hw & Hm1 & Hm2).
    destruct a, b; try discriminate. cbn [wt vadd] in *.
    apply N.ltb_lt in Ha, Hb. rewrite mod_add_spec; auto.
    apply N.ltb_lt, N.mod_lt. lia.
  - destruct a, b; try discriminate. cbn [wt vadd] in *.
    apply N.ltb_lt in Ha, Hb. apply N.ltb_lt. apply lxor_bound; auto.
  - destruct a as [?|xs], b as [?|ys]; try discriminate.
    apply cty_ok_tup in Hok. destruct Hok as [_ Hok].
    cbn [wt vadd] in *. revert xs ys Ha Hb.
    induction ts as [|t ts IHts]; intros [|x xs] [|y ys]; cbn [all2 zip3]; try discriminate; auto.
    intros Ha Hb. apply andb_true_iff in Ha, Hb. destruct Ha, Hb.
    inv IH. inv Hok. apply andb_true_iff. split; auto.
Qed.

Lemma vneg_wt : forall t a, cty_ok t = true -> wt t a = true -> wt t (vneg t a) = true.
Proof.
  induction t as [w|w m|w|ts IH] using cty_ind'; intros a Hok Ha.
  - destruct a; try discriminate. cbn [wt vneg] in *.
    apply N.ltb_lt. apply N.mod_lt. pose proof (pow2_pos w). lia.
  - apply cty_ok_mod in Hok. destruct Hok as (Hw & Hm1 & Hm2).
    destruct a; try discriminate. cbn [wt vneg] in *.
    apply N.ltb_lt in Ha. rewrite N.mod_0_l by lia. rewrite mod_sub_spec by (auto; lia).
    apply N.ltb_lt, N.mod_lt. lia.
  - destruct a; try discriminate. auto.
  - destruct a as [?|xs]; try discriminate.
    apply cty_ok_tup in Hok. destruct Hok as [_ Hok].
    cbn [wt vneg] in *. revert xs Ha.
    induction ts as [|t ts IHts]; intros [|x xs]; cbn [all2 zip2]; try discriminate; auto.
    intros Ha. apply andb_true_iff in Ha. destruct Ha.
    inv IH. inv Hok. apply andb_true_iff. split; auto.
Qed.

Lemma vzero_wt : forall t, cty_ok t = true -> wt t (vzero t) = true.
Proof.
  induction t as [w|w m|w|ts IH] using cty_ind'; intros Hok.
  - cbn [wt vzero]. apply N.ltb_lt, pow2_pos.
  - apply cty_ok_mod in Hok. cbn [wt vzero]. apply N.ltb_lt. lia.
  - cbn [wt vzero]. apply N.ltb_lt, pow2_pos.
  - apply cty_ok_tup in Hok. destruct Hok as [_ Hok]. cbn [wt vzero].
    induction ts as [|t ts IHts]; cbn [map all2]; auto.
    inv IH. inv Hok. apply andb_true_iff. auto.
Qed.

Lemma vadd_comm : forall t a b, cty_ok t = true -> wt t a = true -> wt t b = true ->
  vadd t a b = vadd t b a.
Proof.
  induction t as [w|w m|w|ts IH] using cty_ind'; intros a b Hok Ha Hb.
  - destruct a, b; try discriminate. cbn [vadd]. rewrite N.add_comm. reflexivity.
  - apply cty_ok_mod in Hok. destruct Hok as (Hw & Hm1 & Hm2).
    destruct a, b; try discriminate. cbn [wt vadd] in *.
    apply N.ltb_lt in Ha, Hb. rewrite !mod_add_spec by auto. rewrite N.add_comm. reflexivity.
  - destruct a, b; try discriminate. cbn [vadd]. rewrite N.lxor_comm. reflexivity.
  - destruct a as [?|xs], b as [?|ys]; try discriminate.
    apply cty_ok_tup in Hok. destruct Hok as [_ Hok].
    cbn [wt vadd] in *. f_equal. revert xs ys Ha Hb.
    induction ts as [|t ts IHts]; intros [|x xs] [|y ys]; cbn [all2 zip3]; try discriminate; auto.
    intros Ha Hb. apply andb_true_iff in Ha, Hb. destruct Ha, Hb.
    inv IH. inv Hok. f_equal; auto.
Qed.

Lemma vadd_assoc : forall t a b c, cty_ok t = true ->
  wt t a = true -> wt t b = true -> wt t c = true ->
  vadd t a (vadd t b c) = vadd t (vadd t a b) c.
Proof.
  induction t as [w|w m|w|ts IH] using cty_ind'; intros a b c Hok Ha Hb Hc.
  - destruct a, b, c; try discriminate. cbn [vadd]. f_equal.
    pose proof (pow2_pos w).
    rewrite N.add_mod_idemp_r, N.add_mod_idemp_l by lia. f_equal. lia.
  - apply cty_ok_mod in Hok. destruct Hok as (Hw & Hm1 & Hm2).
    destruct a, b, c; try discriminate. cbn [wt vadd] in *.
    apply N.ltb_lt in Ha, Hb, Hc. f_equal.
    assert (forall k, k mod m < m) by (intros; apply N.mod_lt; lia).
    rewrite !mod_add_spec; rewrite ?mod_add_spec; auto.
    rewrite N.add_mod_idemp_r, N.add_mod_idemp_l by lia. f_equal. lia.
  - destruct a, b, c; try discriminate. cbn [vadd]. rewrite N.lxor_assoc. reflexivity.
  - destruct a as [?|xs], b as [?|ys], c as [?|zs]; try discriminate.
    apply cty_ok_tup in Hok. destruct Hok as [_ Hok].
    cbn [wt vadd] in *. f_equal. revert xs ys zs Ha Hb Hc.
    induction ts as [|t ts IHts]; intros [|x xs] [|y ys] [|z zs]; cbn [all2 zip3];
      try discriminate; auto.
    intros Ha Hb Hc. apply andb_true_iff in Ha, Hb, Hc. destruct Ha, Hb, Hc.
    inv IH. inv Hok. f_equal; auto.
Qed.

Lemma vadd_0_r : forall t a, cty_ok t = true -> wt t a = true -> vadd t a (vzero t) = a.
Proof.
  induction t as [w|w m|w|ts IH] using cty_ind'; intros a Hok Ha.
  - destruct a; try discriminate. cbn [vadd vzero wt] in *. apply N.ltb_lt in Ha.
    rewrite N.add_0_r, N.mod_small; auto.
  - apply cty_ok_mod in Hok. destruct Hok as (Hw & Hm1 & Hm2).
    destruct a; try discriminate. cbn [wt vadd vzero] in *.
    apply N.ltb_lt in Ha. rewrite mod_add_spec by auto.
    rewrite N.add_0_r, N.mod_small; auto.
  - destruct a; try discriminate. cbn [vadd vzero]. rewrite N.lxor_0_r. reflexivity.
  - destruct a as [?|xs]; try discriminate.
    apply cty_ok_tup in Hok. destruct Hok as [_ Hok].
    cbn [wt vadd vzero] in *. f_equal. revert xs Ha.
    induction ts as [|t ts IHts]; intros [|x xs]; cbn [all2 zip3 map]; try discriminate; auto.
    intros Ha. apply andb_true_iff in Ha. destruct Ha.
    inv IH. inv Hok. f_equal; auto.
Qed.

Lemma vadd_neg_r : forall t a, cty_ok t = true -> wt t a = true ->
  vadd t a (vneg t a) = vzero t.
Proof.
  induction t as [w|w m|w|ts IH] using cty_ind'; intros a Hok Ha.
  - destruct a; try discriminate. cbn [vadd vzero vneg wt] in *. apply N.ltb_lt in Ha.
    f_equal. rewrite (N.mod_small n) by auto. rewrite N.add_mod_idemp_r by lia.
    replace (n + (2 ^ w - n)) with (1 * 2 ^ w) by lia. apply N.mod_mul. lia.
  - apply cty_ok_mod in Hok. destruct Hok as (Hw & Hm1 & Hm2).
    destruct a; try discriminate. cbn [wt vadd vzero vneg] in *.
    apply N.ltb_lt in Ha. f_equal. rewrite N.mod_0_l by lia.
    rewrite mod_sub_spec by (auto; lia).
    rewrite mod_add_spec by (auto; try (apply N.mod_lt; lia); lia).
    rewrite N.add_mod_idemp_r by lia.
    replace (n + (0 + (m - n))) with (1 * m) by lia. apply N.mod_mul. lia.
  - destruct a; try discriminate. cbn [vadd vzero vneg]. rewrite N.lxor_nilpotent. reflexivity.
  - destruct a as [?|xs]; try discriminate.
    apply cty_ok_tup in Hok. destruct Hok as [_ Hok].
    cbn [wt vadd vzero vneg] in *. f_equal. revert xs Ha.
    induction ts as [|t ts IHts]; intros [|x xs]; cbn [all2 zip3 zip2 map]; try discriminate; auto.
    intros Ha. apply andb_true_iff in Ha. destruct Ha.
    inv IH. inv Hok. f_equal; auto.
Qed.

Lemma vsub_add_neg : forall t a b, cty_ok t = true -> wt t a = true -> wt t b = true ->
  vsub t a b = vadd t a (vneg t b).
Proof.
  intros [w|w m|ts|w] a b Hok Ha Hb; destruct a, b; try discriminate;
    cbn [vsub vadd vneg wt] in *; auto.
  - pose proof (pow2_pos w). rewrite N.add_mod_idemp_r by lia. reflexivity.
  - apply cty_ok_mod in Hok. destruct Hok as (Hw & Hm1 & Hm2).
    apply N.ltb_lt in Ha, Hb. rewrite N.mod_0_l by lia.
    rewrite !mod_sub_spec by (auto; lia).
    rewrite mod_add_spec by (auto; try (apply N.mod_lt; lia); lia).
    rewrite N.add_mod_idemp_r by lia. rewrite N.add_0_l. reflexivity.
Qed.

Lemma vsub_wt : forall t a b, cty_ok t = true -> wt t a = true -> wt t b = true ->
  wt t (vsub t a b) = true.
Proof.
  intros. rewrite vsub_add_neg by auto. auto using vadd_wt, vneg_wt.
Qed.

(** The operations compute the documented sums. *)
Lemma vadd_gsum : forall t a b, cty_ok t = true -> wt t a = true -> wt t b = true ->
  gsum t a b (vadd t a b).
Proof.
  induction t as [w|w m|w|ts IH] using cty_ind'; intros a b Hok Ha Hb.
  - destruct a, b; try discriminate. constructor.
  - apply cty_ok_mod in Hok. destruct Hok as (Hw & Hm1 & Hm2).
    destruct a, b; try discriminate. cbn [wt vadd] in *.
    apply N.ltb_lt in Ha, Hb. rewrite mod_add_spec by auto. constructor.
  - destruct a, b; try discriminate. constructor.
  - destruct a as [?|xs], b as [?|ys]; try discriminate.
    apply cty_ok_tup in Hok. destruct Hok as [_ Hok].
    cbn [wt vadd] in *. constructor. revert xs ys Ha Hb.
    induction ts as [|t ts IHts]; intros [|x xs] [|y ys]; cbn [all2 zip3]; try discriminate.
    + constructor.
    + intros Ha Hb. apply andb_true_iff in Ha, Hb. destruct Ha, Hb.
      inv IH. inv Hok. constructor; auto.
Qed.

(** Derived group facts used by the DPF proofs. *)
Section Group.
  Variable t : cty.
  Hypothesis Hok : cty_ok t = true.
  Notation W := (fun a => wt t a = true).

  Lemma vadd_0_l : forall a, W a -> vadd t (vzero t) a = a.
  Proof. intros a Ha. rewrite vadd_comm; auto using vzero_wt, vadd_0_r. Qed.
  Lemma vadd_neg_l : forall a, W a -> vadd t (vneg t a) a = vzero t.
  Proof. intros a Ha. rewrite vadd_comm; auto using vneg_wt, vadd_neg_r. Qed.
  Lemma vadd_cancel_l : forall a b c, W a -> W b -> W c ->
    vadd t a b = vadd t a c -> b = c.
  Proof.
    intros a b c Ha Hb Hc H.
    rewrite <- (vadd_0_l b), <- (vadd_0_l c), <- (vadd_neg_l a) by auto.
    rewrite <- !vadd_assoc by auto using vneg_wt. rewrite H. reflexivity.
  Qed.
  Lemma vneg_unique : forall a b, W a -> W b -> vadd t a b = vzero t -> b = vneg t a.
  Proof.
    intros a b Ha Hb H. apply (vadd_cancel_l a); auto using vneg_wt.
    rewrite vadd_neg_r; auto.
  Qed.
  Lemma vneg_neg : forall a, W a -> vneg t (vneg t a) = a.
  Proof.
    intros a Ha. symmetry. apply vneg_unique; auto using vneg_wt, vadd_neg_l.
  Qed.
  Lemma vneg_add : forall a b, W a -> W b ->
    vneg t (vadd t a b) = vadd t (vneg t a) (vneg t b).
  Proof.
    intros a b Ha Hb. symmetry.
    assert (Hna := vneg_wt t a Hok Ha). assert (Hnb := vneg_wt t b Hok Hb).
    apply vneg_unique; auto using vadd_wt.
    rewrite (vadd_comm t (vneg t a)) by auto.
    rewrite vadd_assoc by auto using vadd_wt.
    rewrite <- (vadd_assoc t a b) by auto.
    rewrite vadd_neg_r, vadd_0_r by auto. apply vadd_neg_r; auto.
  Qed.
  Lemma vneg_0 : vneg t (vzero t) = vzero t.
  Proof.
    symmetry. apply vneg_unique; auto using vzero_wt. apply vadd_0_r; auto using vzero_wt.
  Qed.
  (** Four-term regrouping. *)
  Lemma vadd_4 : forall a b c d, W a -> W b -> W c -> W d ->
    vadd t (vadd t a b) (vadd t c d) = vadd t (vadd t a c) (vadd t b d).
  Proof.
    intros a b c d Ha Hb Hc Hd.
    rewrite <- !vadd_assoc by auto using vadd_wt. f_equal.
    rewrite !vadd_assoc by auto. f_equal. apply vadd_comm; auto.
  Qed.
End Group.
