(** C71: ValueTypesAreEqual. *)
From Coq Require Import List NArith ZArith Lia Bool.
From Verif Require Import Base ListUtil ValueTypesModel ValueTypesSpec ValueTypesProofs ConvProofs BitsProofs TypeProofs DpfHist DpfReach.
Import ListNotations.
Open Scope N_scope.

(** Every part of the description is set. *)
Inductive complete : ptype -> Prop :=
| complete_int : forall w, complete (PTInteger w)
| complete_mod : forall w i x, encodes i x -> complete (PTIntModN w i)
| complete_xor : forall w, complete (PTXor w)
| complete_tup : forall ts, Forall complete ts -> complete (PTTuple ts).

(** Two descriptions of C++ types are compared by the types they describe, however the moduli are
    encoded. *)
Theorem C71_equal : forall a b T T', denotes a T -> denotes b T' ->
  exists e, value_types_are_equal a b = Ok e /\ (e = true <-> T = T').
Proof.
  intros a b T. revert a b. induction T as [w|w m|w|ts IH] using cty_ind'; intros a b T' HA HB; apply denotes_inv in HA; cbv beta iota in HA.
  - subst a. inversion HB; subst; cbn [value_types_are_equal]; eexists; (split; [reflexivity|]); split; intros HX; try discriminate.
    + f_equal. lia.
    + inversion HX. apply Z.eqb_refl.
  - destruct HA as (i & -> & Hi). inversion HB as [|w' m' j Hj| |]; subst; cbn [value_types_are_equal]; try (eexists; split; [reflexivity|]; split; intros HX; discriminate).
    apply vinteger_to_uint128_encodes in Hi, Hj. rewrite Hi, Hj. cbn [bind]. eexists. split; [reflexivity|]. split; intros H.
    + apply andb_true_iff in H. destruct H as [H1 H2]. apply Z.eqb_eq in H1. apply N.eqb_eq in H2. f_equal; [lia|exact H2].
    + inversion H; subst. rewrite Z.eqb_refl, N.eqb_refl. reflexivity.
  - subst a. inversion HB; subst; cbn [value_types_are_equal]; eexists; (split; [reflexivity|]); split; intros HX; try discriminate.
    + f_equal. lia.
    + inversion HX. apply Z.eqb_refl.
  - destruct HA as (ps & -> & HF). inversion HB as [| | |qs ts' HG]; subst; cbn [value_types_are_equal]; try (eexists; split; [reflexivity|]; split; intros HX; discriminate).
    pose proof (Forall2_length _ _ _ _ _ HF) as L1. pose proof (Forall2_length _ _ _ _ _ HG) as L2.
    destruct (Nat.eqb_spec (length ps) (length qs)) as [HL|HL].
    + assert (HX : exists e, types_equal_list value_types_are_equal ps qs = Ok e /\ (e = true <-> ts = ts')).
      { clear HB L1 L2. revert ps qs ts' HF HG HL. induction ts as [|t ts IHts]; intros ps qs ts' HF HG HL; inversion HF as [|p ? ps' ? Hp HF']; subst;
          inversion HG as [|q t' qs' ts'' Hq HG']; subst; try discriminate HL.
        - exists true. split; [reflexivity|]. split; reflexivity.
        - fcons IH IHh IHt. destruct (IHh _ _ _ Hp Hq) as (e & E & He). destruct (IHts IHt _ _ _ HF' HG') as (e' & E' & He'); [now injection HL|].
          cbn [types_equal_list]. rewrite E, E'. cbn [bind]. eexists. split; [reflexivity|]. rewrite andb_true_iff, He, He'. split; [intros [-> ->]; reflexivity|].
          intros H. inversion H. split; reflexivity. }
      destruct HX as (e & E & He). exists e. split; [exact E|]. rewrite He. split; [intros ->; reflexivity|intros H; now inversion H].
    + exists false. split; [reflexivity|]. split; [discriminate|]. intros H. inversion H. subst. congruence.
Qed.
Print Assumptions C71_equal.

(** Complete descriptions are compared without an error; each equals itself, and no other description
    does. *)
Lemma complete_inv : forall a, complete a -> match a with
  | PTUnset => False | PTIntModN _ i => exists x, encodes i x | PTTuple ts => Forall complete ts | _ => True end.
Proof. intros a H. destruct H; eauto. Qed.
Theorem C71_complete : forall a b, complete a -> complete b -> exists e, value_types_are_equal a b = Ok e.
Proof.
  induction a as [|w|w m|w|ts IH] using ptype_ind'; intros b HA HB; apply complete_inv in HA; apply complete_inv in HB; [contradiction|..];
    destruct b as [|w'|els|w' i'|w']; try contradiction; cbn [value_types_are_equal]; eauto.
  - destruct HA as (x & Hx), HB as (y & Hy). apply vinteger_to_uint128_encodes in Hx, Hy. rewrite Hx, Hy. cbn [bind]. eauto.
  - destruct (Nat.eqb_spec (length ts) (length els)) as [HL|HL]; [|eauto]. revert els HB HL. induction ts as [|t ts IHts]; intros [|e els] HB HL; cbn [types_equal_list]; eauto.
    fcons IH IHh IHt. fcons HA HAh HAt. fcons HB HBh HBt. destruct (IHh _ HAh HBh) as (x & ->). destruct (IHts IHt HAt els HBt) as (y & ->); [now injection HL|].
    cbn [bind]. eauto.
Qed.
Print Assumptions C71_complete.
Theorem C71_reflexive : forall a, (complete a -> value_types_are_equal a a = Ok true) /\ (~ complete a -> value_types_are_equal a a = Err INVALID_ARGUMENT).
Proof.
  intros a. assert (H : (complete a /\ value_types_are_equal a a = Ok true) \/ (~ complete a /\ value_types_are_equal a a = Err INVALID_ARGUMENT)).
  { induction a as [|w|w m|w|ts IH] using ptype_ind'; cbn [value_types_are_equal].
    - right. split; [intros H; inversion H|reflexivity].
    - left. rewrite Z.eqb_refl. split; [constructor|reflexivity].
    - destruct m as [|v|h l].
      + right. split; [intros H; inversion H; subst; contradiction|reflexivity].
      + left. split; [apply (complete_mod _ _ (v mod 2 ^ 64)); reflexivity|]. cbn [vinteger_to_uint128 bind]. rewrite Z.eqb_refl, N.eqb_refl. reflexivity.
      + left. split; [apply (complete_mod _ _ ((h mod 2 ^ 64) * 2 ^ 64 + l mod 2 ^ 64)); reflexivity|]. cbn [vinteger_to_uint128 bind]. rewrite Z.eqb_refl, N.eqb_refl. reflexivity.
    - left. rewrite Z.eqb_refl. split; [constructor|reflexivity].
    - rewrite Nat.eqb_refl.
      assert (HX : (Forall complete ts /\ types_equal_list value_types_are_equal ts ts = Ok true) \/
                   (~ Forall complete ts /\ types_equal_list value_types_are_equal ts ts = Err INVALID_ARGUMENT)).
      { induction ts as [|t ts IHts]; [left; split; [constructor|reflexivity]|]. fcons IH IHh IHt. cbn [types_equal_list].
        destruct IHh as [[C ->]|[C ->]]; [|right; split; [intros H; inversion H; contradiction|reflexivity]].
        cbn [bind]. destruct (IHts IHt) as [[D ->]|[D ->]]; [left; split; [constructor; assumption|reflexivity]|right; split; [intros H; inversion H; contradiction|reflexivity]]. }
      destruct HX as [[C E]|[C E]]; [left|right]; rewrite E; (split; [|reflexivity]); [constructor; exact C|intros H; inversion H; contradiction]. }
  destruct H as [[H1 H2]|[H1 H2]]; split; intros H; try exact H2; contradiction.
Qed.
Print Assumptions C71_reflexive.
(** For all descriptions, complete or not: the result is symmetric, true is transitive, and an error is
    INVALID_ARGUMENT. *)
Lemma bind_swap : forall T U V (x : res T) (y : res U) (f : T -> U -> res V), ok_or_invalid x -> ok_or_invalid y ->
  (a <- x ;; b <- y ;; f a b) = (b <- y ;; a <- x ;; f a b).
Proof. intros T U V [x|e| |] [y|e'| |] f HX HY; cbn in *; try contradiction; congruence. Qed.
Lemma vinteger_ooi : forall i, ok_or_invalid (vinteger_to_uint128 i).
Proof. intros [|v|h l]; cbn; exact I || reflexivity. Qed.
Theorem C71_symmetric : forall a b, value_types_are_equal a b = value_types_are_equal b a.
Proof.
  induction a as [|w|w m|w|ts IH] using ptype_ind'; intros b; destruct b as [|w'|els|w' i'|w']; cbn [value_types_are_equal]; try reflexivity.
  - rewrite Z.eqb_sym. reflexivity.
  - rewrite bind_swap by apply vinteger_ooi. rewrite (Z.eqb_sym w w'). destruct (vinteger_to_uint128 i'), (vinteger_to_uint128 m); cbn [bind]; try reflexivity. rewrite (N.eqb_sym a0 a). reflexivity.
  - rewrite Z.eqb_sym. reflexivity.
  - rewrite (Nat.eqb_sym (length els)). destruct (Nat.eqb _ _); [|reflexivity].
    revert els. induction ts as [|t ts IHts]; intros [|e els]; cbn [types_equal_list]; try reflexivity.
    fcons IH IHh IHt. rewrite (IHh e), (IHts IHt els). reflexivity.
Qed.
Print Assumptions C71_symmetric.
Lemma equal_list : forall ts us, Nat.eqb (length ts) (length us) = true ->
  types_equal_list value_types_are_equal ts us = Ok true -> Forall2 (fun a b => value_types_are_equal a b = Ok true) ts us.
Proof.
  induction ts as [|t ts IH]; intros [|u us] HL H; try discriminate HL; [constructor|]. cbn [types_equal_list] in H. bind_inv H. bind_inv H. inversion H as [E].
  apply andb_true_iff in E. destruct E as [-> ->]. constructor; [exact Hb|apply IH; assumption].
Qed.
Lemma list_equal : forall ts us, Forall2 (fun a b => value_types_are_equal a b = Ok true) ts us ->
  Nat.eqb (length ts) (length us) = true /\ types_equal_list value_types_are_equal ts us = Ok true.
Proof.
  intros ts us H. induction H as [|t u ts us H1 H2 [IH1 IH2]]; [split; reflexivity|]. cbn [length Nat.eqb types_equal_list]. rewrite H1, IH2. auto.
Qed.
Theorem C71_transitive : forall a b c, value_types_are_equal a b = Ok true -> value_types_are_equal b c = Ok true -> value_types_are_equal a c = Ok true.
Proof.
  induction a as [|w|w m|w|ts IH] using ptype_ind'; intros b c H1 H2; destruct b as [|w'|els|w' i'|w']; cbn [value_types_are_equal] in H1; try discriminate H1;
    destruct c as [|w''|els'|w'' i''|w'']; cbn [value_types_are_equal] in H2; try discriminate H2; cbn [value_types_are_equal].
  - inversion H1 as [E1]. inversion H2 as [E2]. apply Z.eqb_eq in E1, E2. subst. rewrite Z.eqb_refl. reflexivity.
  - bind_inv H1. bind_inv H1. bind_inv H2. bind_inv H2. rewrite Hb. cbn [bind]. rewrite Hb2. cbn [bind]. inversion H1 as [E1]. inversion H2 as [E2].
    apply andb_true_iff in E1, E2. destruct E1 as [E1 F1], E2 as [E2 F2]. apply Z.eqb_eq in E1, E2. apply N.eqb_eq in F1, F2.
    assert (a = a2) as -> by congruence. assert (w = w'') as -> by congruence. rewrite Z.eqb_refl, N.eqb_refl. cbn [andb]. congruence.
  - inversion H1 as [E1]. inversion H2 as [E2]. apply Z.eqb_eq in E1, E2. subst. rewrite Z.eqb_refl. reflexivity.
  - destruct (Nat.eqb (length ts) (length els)) eqn:L1; [|discriminate]. destruct (Nat.eqb (length els) (length els')) eqn:L2; [|discriminate].
    apply (equal_list _ _ L1) in H1. apply (equal_list _ _ L2) in H2. clear L1 L2.
    assert (HF : Forall2 (fun a b => value_types_are_equal a b = Ok true) ts els').
    { revert els' H2. induction H1 as [|t e ts els Hte H1 IHts]; intros els' H2; inversion H2 as [|? e' ? els'' He H2']; subst; [constructor|].
      fcons IH IHh IHt. constructor; [exact (IHh _ _ Hte He)|exact (IHts IHt _ H2')]. }
    destruct (list_equal _ _ HF) as [-> ->]. reflexivity.
Qed.
Print Assumptions C71_transitive.
(** Equal descriptions describe the same types. *)
Theorem C71_same : forall a b T, value_types_are_equal a b = Ok true -> (denotes a T <-> denotes b T).
Proof.
  assert (H : forall a b T, value_types_are_equal a b = Ok true -> denotes a T -> denotes b T).
  { intros a b T. revert a b. induction T as [w|w m|w|ts IH] using cty_ind'; intros a b H HA; apply denotes_inv in HA; cbv beta iota in HA.
    - subst a. destruct b; cbn [value_types_are_equal] in H; try discriminate. inversion H as [E]. apply Z.eqb_eq in E. subst. constructor.
    - destruct HA as (i & -> & Hi). destruct b; cbn [value_types_are_equal] in H; try discriminate. apply vinteger_to_uint128_encodes in Hi. rewrite Hi in H.
      cbn [bind] in H. bind_inv H. inversion H as [E]. apply andb_true_iff in E. destruct E as [E F]. apply Z.eqb_eq in E. apply N.eqb_eq in F. subst.
      constructor. apply vinteger_to_uint128_encodes, Hb.
    - subst a. destruct b; cbn [value_types_are_equal] in H; try discriminate. inversion H as [E]. apply Z.eqb_eq in E. subst. constructor.
    - destruct HA as (ps & -> & HF). destruct b as [| |els| |]; cbn [value_types_are_equal] in H; try discriminate.
      destruct (Nat.eqb (length ps) (length els)) eqn:L; [|discriminate]. apply (equal_list _ _ L) in H. clear L. constructor.
      revert els H. induction HF as [|p t ps ts Hp HF IHF]; intros els H; inversion H as [|? e ? els' He H']; subst; constructor; fcons IH IHh IHt; [exact (IHh _ _ He Hp)|exact (IHF IHt _ H')]. }
  intros a b T E. split; [exact (H a b T E)|]. apply H. rewrite C71_symmetric. exact E.
Qed.
Print Assumptions C71_same.
Theorem C71_error : forall a b, (exists e, value_types_are_equal a b = Ok e) \/ value_types_are_equal a b = Err INVALID_ARGUMENT.
Proof.
  intros a b. pose proof (value_types_equal_ooi a b) as H. destruct (value_types_are_equal a b) as [e|c| |]; cbn in H; try contradiction; [left; eauto|right; congruence].
Qed.
Print Assumptions C71_error.

(** The same modulus in both encodings, types that differ in one place, and incomplete descriptions. *)
Example C71_nonvacuous :
  let t m := PTTuple [PTIntModN 64 m; PTTuple [PTInteger 32; PTXor 128]] in
  denotes (t (VI64 97)) (TTup [TMod 64 97; TTup [TInt 32; TXor 128]]) /\ denotes (t (VI128 0 97)) (TTup [TMod 64 97; TTup [TInt 32; TXor 128]]) /\
  value_types_are_equal (t (VI64 97)) (t (VI128 0 97)) = Ok true /\ value_types_are_equal (t (VI64 97)) (t (VI64 101)) = Ok false /\
  value_types_are_equal (t (VI64 97)) (t VIUnset) = Err INVALID_ARGUMENT /\ ~ complete (t VIUnset) /\ complete (t (VI64 97)) /\
  value_types_are_equal (PTInteger 32) (PTXor 32) = Ok false /\ value_types_are_equal (PTInteger 32) PTUnset = Err INVALID_ARGUMENT.
Proof.
  repeat split; try reflexivity; try (repeat constructor; fail).
  - apply (denotes_tup _ [_; _]). repeat constructor; try apply (denotes_int 32); try apply (denotes_xor 128). apply (denotes_mod 64). reflexivity.
  - apply (denotes_tup _ [_; _]). repeat constructor; try apply (denotes_int 32); try apply (denotes_xor 128). apply (denotes_mod 64). reflexivity.
  - intros H. apply complete_inv in H. apply Forall_inv in H. inversion H. contradiction.
  - repeat constructor. apply (complete_mod _ _ 97). reflexivity.
Qed.

(** ** C16: exactly which messages FromValue accepts *)

(** The number that is compared with the maximum of a [w]-bit integer: all of it only for 128 bits. *)
Definition seen (w x : N) : N := if w =? 128 then x else x mod 2 ^ 64.
(** [accepted t p v]: like [repr], with [seen] numbers for integers and XorWrappers. *)
Inductive accepted : cty -> pvalue -> cval -> Prop :=
| accepted_int : forall w i x, encodes i x -> seen w x < 2 ^ w -> accepted (TInt w) (PVInteger i) (VNum (seen w x))
| accepted_mod : forall w m i x, encodes i x -> x < m -> accepted (TMod w m) (PVIntModN i) (VNum x)
| accepted_xor : forall w i x, encodes i x -> seen w x < 2 ^ w -> accepted (TXor w) (PVXor i) (VNum (seen w x))
| accepted_tup : forall ts ps vs, all_accepted ts ps vs -> accepted (TTup ts) (PVTuple ps) (VTup vs)
with all_accepted : list cty -> list pvalue -> list cval -> Prop :=
| accepted_nil : all_accepted [] [] []
| accepted_cons : forall t ts p ps v vs, accepted t p v -> all_accepted ts ps vs -> all_accepted (t :: ts) (p :: ps) (v :: vs).

Lemma accepted_inv : forall t p v, accepted t p v ->
  match t with
  | TInt w => exists i x, p = PVInteger i /\ v = VNum (seen w x) /\ encodes i x /\ seen w x < 2 ^ w
  | TMod w m => exists i x, p = PVIntModN i /\ v = VNum x /\ encodes i x /\ x < m
  | TXor w => exists i x, p = PVXor i /\ v = VNum (seen w x) /\ encodes i x /\ seen w x < 2 ^ w
  | TTup ts => exists ps vs, p = PVTuple ps /\ v = VTup vs /\ all_accepted ts ps vs
  end.
Proof. intros t p v H. destruct H; eauto 8. Qed.
Lemma uint128_to_seen : forall w x, cwidth_ok w = true -> x < P128 ->
  uint128_to w x = if seen w x <? 2 ^ w then Ok (seen w x) else Err INVALID_ARGUMENT.
Proof.
  intros w x Hw Hx. unfold uint128_to, seen. change (lo64 x) with (x mod 2 ^ 64). pose proof (N.pow_nonzero 2 w ltac:(discriminate)) as HP. destruct (N.eqb_spec w 128) as [->|Hn]; cbn [negb andb].
  - change (2 ^ 128) with P128. assert (x <? P128 = true) as -> by (apply N.ltb_lt; exact Hx). rewrite N.mod_small by exact Hx. reflexivity.
  - destruct (N.ltb_spec (2 ^ w - 1) (x mod 2 ^ 64)) as [H|H], (N.ltb_spec (x mod 2 ^ 64) (2 ^ w)) as [H'|H']; try reflexivity; try (exfalso; clear - H H' HP; lia).
    f_equal. apply cwidth_cases in Hw. assert (HE : exists k, 2 ^ 64 = 2 ^ w * k).
    { exists (2 ^ (64 - w)). rewrite <- N.pow_add_r. f_equal. clear - Hw Hn. lia. }
    destruct HE as (k & HE). symmetry. apply (N.mod_unique x (2 ^ w) (k * (x / 2 ^ 64))); [exact H'|].
    rewrite N.mul_assoc, <- HE. apply N.div_mod. discriminate.
Qed.
Theorem C16_from_value_exact : forall t p, cty_ok t = true ->
  (forall v, from_value t p = Ok v <-> accepted t p v) /\
  ((forall v, ~ accepted t p v) -> from_value t p = Err INVALID_ARGUMENT).
Proof.
  intros t p Ht.
  assert (HI : forall v, from_value t p = Ok v <-> accepted t p v).
  { revert p Ht. induction t as [w|w m|w|ts IH] using cty_ind'; intros p Hok v; cbn [from_value]; split; intros H.
    - destruct p; try discriminate. bind_inv H. rewrite uint128_to_seen in H by (exact Hok || exact (vinteger_to_uint128_bound _ _ Hb)).
      destruct (N.ltb_spec (seen w a) (2 ^ w)); inv H. constructor; [apply vinteger_to_uint128_encodes|]; assumption.
    - apply accepted_inv in H. destruct H as (i & x & -> & -> & He & Hx). apply vinteger_to_uint128_encodes in He. rewrite He. cbn [bind].
      rewrite uint128_to_seen by (exact Hok || exact (vinteger_to_uint128_bound _ _ He)). assert (seen w x <? 2 ^ w = true) as -> by (apply N.ltb_lt; exact Hx). reflexivity.
    - destruct p; try discriminate. bind_inv H. apply cty_ok_mod in Hok. destruct (N.leb_spec m a); inv H.
      rewrite (N.mod_small a (2 ^ w)) by (eapply N.lt_trans; [eassumption|apply Hok]). rewrite N.mod_small by assumption.
      constructor; [apply vinteger_to_uint128_encodes|]; assumption.
    - apply accepted_inv in H. destruct H as (i & x & -> & -> & He & Hx). apply vinteger_to_uint128_encodes in He. rewrite He. cbn [bind].
      destruct (N.leb_spec m x) as [C|_]; [exfalso; apply N.lt_nge in Hx; contradiction|]. apply cty_ok_mod in Hok.
      rewrite (N.mod_small x (2 ^ w)) by (eapply N.lt_trans; [eassumption|apply Hok]). rewrite N.mod_small by assumption. reflexivity.
    - destruct p as [|?|?|?|i]; cbn [vinteger_to_uint128 bind] in H; try discriminate. bind_inv H.
      rewrite uint128_to_seen in H by (exact Hok || exact (vinteger_to_uint128_bound _ _ Hb)).
      destruct (N.ltb_spec (seen w a) (2 ^ w)); inv H. constructor; [apply vinteger_to_uint128_encodes|]; assumption.
    - apply accepted_inv in H. destruct H as (i & x & -> & -> & He & Hx). apply vinteger_to_uint128_encodes in He. rewrite He. cbn [bind].
      rewrite uint128_to_seen by (exact Hok || exact (vinteger_to_uint128_bound _ _ He)). assert (seen w x <? 2 ^ w = true) as -> by (apply N.ltb_lt; exact Hx). reflexivity.
    - destruct p as [| |els| |]; try discriminate. destruct (Nat.eqb_spec (length els) (length ts)) as [HL|]; cbn [negb] in H; [|discriminate]. bind_inv H. inv H. constructor.
      apply cty_ok_tup in Hok. destruct Hok as [_ Hok]. revert els a HL Hb. induction ts as [|t ts IHts]; intros [|p ps] a HL Hb; cbn [from_value_list] in Hb; try discriminate; inv Hb; [constructor|].
      bind_inv H0. bind_inv H0. inv H0. fcons IH IHh IHt. fcons Hok Hokh Hokt. constructor; [apply IHh; assumption|apply IHts; try assumption; now injection HL].
    - apply accepted_inv in H. destruct H as (ps & vs & -> & -> & HA). apply cty_ok_tup in Hok. destruct Hok as [_ Hok].
      assert (HX : length ps = length ts /\ from_value_list from_value ts ps = Ok vs).
      { induction HA as [|t ts p ps v vs H HA IHA]; [split; reflexivity|]. fcons IH IHh IHt. fcons Hok Hokh Hokt. destruct (IHA IHt Hokt) as [HL HV].
        split; [cbn [length]; congruence|]. cbn [from_value_list]. rewrite (proj2 (IHh p Hokh v) H). cbn [bind]. rewrite HV. reflexivity. }
      destruct HX as [HL HV]. rewrite HL, Nat.eqb_refl. cbn [negb]. rewrite HV. reflexivity. }
  split; [exact HI|]. intros Hn. pose proof (from_value_safe t p) as [Hc Hu]. destruct (from_value t p) as [v|c| |] eqn:E.
  - exfalso. apply (Hn v), HI. reflexivity.
  - f_equal. eapply from_value_err; eauto.
  - congruence.
  - congruence.
Qed.
Print Assumptions C16_from_value_exact.
Example C16_exact_nonvacuous :
  accepted (TTup [TInt 8; TMod 32 1000]) (PVTuple [PVInteger (VI128 7 200); PVIntModN (VI64 999)]) (VTup [VNum 200; VNum 999]) /\
  (forall v, ~ accepted (TInt 8) (PVInteger (VI128 7 256)) v) /\ (forall v, ~ accepted (TMod 32 1000) (PVIntModN (VI128 7 200)) v).
Proof.
  split; [|split].
  - constructor. constructor; [|constructor; [|constructor]].
    + apply (accepted_int 8 (VI128 7 200) (7 * 2 ^ 64 + 200)); [vm_compute; reflexivity|vm_compute; reflexivity].
    + constructor; reflexivity.
  - intros v H. apply accepted_inv in H. destruct H as (i & x & Hi & _ & He & Hs). inv Hi. cbn in He. subst x. vm_compute in Hs. discriminate.
  - intros v H. apply accepted_inv in H. destruct H as (i & x & Hi & _ & He & Hs). inv Hi. cbn in He. subst x. vm_compute in Hs. discriminate.
Qed.
