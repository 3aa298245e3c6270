(** Property C74: the table of value correction functions, keyed by serialized types. *)
From Coq Require Import List NArith ZArith Lia Bool ZifyBool ZifyNat ZifyN.
From Verif Require Import Base ListUtil ValueTypesModel ValueTypesProofs ValueTypesSpec ConvProofs TypeProofs DpfModel SparseModel SparseDbProofs WireModel.
Import ListNotations.
Open Scope N_scope.
Ltac Zify.zify_post_hook ::= Z.div_mod_to_equations.

(** * Messages *)

Section MtypeInd.
  Variable P : mtype -> Prop.
  Hypothesis HU : P MTUnset.
  Hypothesis HI : forall b, P (MTInteger b).
  Hypothesis HT : forall els, Forall P els -> P (MTTuple els).
  Hypothesis HM : forall b v, P (MTIntModN b v).
  Hypothesis HX : forall b, P (MTXor b).
  Fixpoint mtype_ind' (m : mtype) : P m :=
    match m with
    | MTUnset => HU
    | MTInteger b => HI b
    | MTTuple els => HT els ((fix go (l : list mtype) : Forall P l :=
        match l with [] => Forall_nil _ | x :: l' => Forall_cons x (mtype_ind' x) (go l') end) els)
    | MTIntModN b v => HM b v
    | MTXor b => HX b
    end.
End MtypeInd.

Definition int32 (b : Z) : Prop := (- 2 ^ 31 <= b < 2 ^ 31)%Z.
Definition uint64 (x : N) : Prop := x < 2 ^ 64.
Definition vinteger_fits (v : vinteger) : Prop :=
  match v with VIUnset => True | VI64 x => uint64 x | VI128 hi lo => uint64 hi /\ uint64 lo end.
(** The numbers in a message are of the types of its fields. *)
Fixpoint message_fits (m : mtype) : Prop :=
  match m with
  | MTUnset => True
  | MTInteger b | MTXor b => int32 b
  | MTTuple els => fold_right (fun e p => message_fits e /\ p) True els
  | MTIntModN b v => (match b with Some b => int32 b | None => True end) /\
                     (match v with Some v => vinteger_fits v | None => True end)
  end.
Lemma fits_forall : forall els, fold_right (fun e p => message_fits e /\ p) True els <-> Forall message_fits els.
Proof.
  induction els as [|e els IH]; cbn [fold_right]; [split; auto|].
  rewrite IH. split; [intros []; constructor; assumption|]. intros H. fcons H H1 H2. auto.
Qed.

(** * Injectivity *)

Lemma cons_inj : forall (A : Type) (x y : A) a b, x :: a = y :: b -> x = y /\ a = b.
Proof. intros A x y a b E. inversion E. auto. Qed.
Lemma varint_inj : forall x y r s, uint64 x -> uint64 y ->
  varint_encode 10 x ++ r = varint_encode 10 y ++ s -> x = y /\ r = s.
Proof.
  intros x y r s Hx Hy E. unfold uint64 in *.
  assert (B : 2 ^ 64 < 128 ^ N.of_nat 10) by (vm_compute; reflexivity).
  pose proof (varint_round 10 x r ltac:(clear - Hx B; lia) ltac:(lia)) as R1.
  pose proof (varint_round 10 y s ltac:(clear - Hy B; lia) ltac:(lia)) as R2.
  rewrite E, R2 in R1. inversion R1. auto.
Qed.
Lemma varint_inj0 : forall x y, uint64 x -> uint64 y -> varint_encode 10 x = varint_encode 10 y -> x = y.
Proof.
  intros x y Hx Hy E. apply (varint_inj x y [] []); [assumption..|]. rewrite E. reflexivity.
Qed.
Lemma small64 : forall d, small d -> uint64 (N.of_nat (length d)).
Proof. unfold small, uint64. intros d H. eapply N.lt_trans; [exact H|]. vm_compute. reflexivity. Qed.
Lemma field_inj : forall t t' d d' r s, small d -> small d' ->
  encode_field t d ++ r = encode_field t' d' ++ s -> t = t' /\ d = d' /\ r = s.
Proof.
  intros t t' d d' r s Hd Hd' E. unfold encode_field in E. cbn [app] in E. rewrite <- !app_assoc in E.
  apply cons_inj in E. destruct E as [E1 E2]. apply varint_inj in E2; [|apply small64; assumption..]. destruct E2 as [EL E3].
  apply Nat2N.inj in EL.
  assert (F : firstn (length d) (d ++ r) = firstn (length d) (d' ++ s)) by (rewrite E3; reflexivity).
  assert (S : skipn (length d) (d ++ r) = skipn (length d) (d' ++ s)) by (rewrite E3; reflexivity).
  rewrite firstn_app_exact in F by reflexivity. rewrite skipn_app_exact in S by reflexivity.
  rewrite EL in F, S. rewrite firstn_app_exact in F by reflexivity. rewrite skipn_app_exact in S by reflexivity. auto.
Qed.
Lemma field_inj0 : forall t t' d d', small d -> small d' ->
  encode_field t d = encode_field t' d' -> t = t' /\ d = d'.
Proof.
  intros t t' d d' Hd Hd' E. assert (E' : encode_field t d ++ [] = encode_field t' d' ++ []) by (rewrite E; reflexivity).
  apply field_inj in E'; tauto.
Qed.
Lemma field_small : forall t d, small (encode_field t d) -> small d.
Proof. intros t d. unfold small, encode_field. cbn [length]. rewrite app_length. lia. Qed.
Lemma small_app : forall a b, small (a ++ b) -> small a /\ small b.
Proof. intros a b. unfold small. rewrite app_length. lia. Qed.

Lemma number_inj : forall t x y, uint64 x -> uint64 y -> number_field t x = number_field t y -> x = y.
Proof.
  intros t x y Hx Hy. unfold number_field. destruct (N.eqb_spec x 0), (N.eqb_spec y 0); intros E; try congruence; try discriminate.
  apply cons_inj in E. destruct E as [_ E]. apply varint_inj0; assumption.
Qed.
Lemma integer_inj : forall b c, int32 b -> int32 c -> write_integer b = write_integer c -> b = c.
Proof.
  unfold write_integer, int32. intros b c Hb Hc E. apply number_inj in E; unfold uint64; try lia.
Qed.
Lemma block_inj : forall h l h' l', uint64 h -> uint64 l -> uint64 h' -> uint64 l' ->
  write_block h l = write_block h' l' -> h = h' /\ l = l'.
Proof.
  intros h l h' l' Hh Hl Hh' Hl' E. unfold write_block in E.
  destruct (N.eqb_spec h 0) as [->|N1], (N.eqb_spec h' 0) as [->|N2].
  - split; [reflexivity|]. eapply number_inj; [..|exact E]; assumption.
  - exfalso. unfold number_field in E. change (0 =? 0) with true in E. cbn [app] in E.
    destruct (N.eqb_spec h' 0); [contradiction|]. destruct (l =? 0); discriminate.
  - exfalso. unfold number_field in E. change (0 =? 0) with true in E. cbn [app] in E.
    destruct (N.eqb_spec h 0); [contradiction|]. destruct (l' =? 0); discriminate.
  - unfold number_field in E at 1 3. destruct (N.eqb_spec h 0); [contradiction|]. destruct (N.eqb_spec h' 0); [contradiction|].
    cbn [app] in E. apply cons_inj in E. destruct E as [_ E']. apply varint_inj in E'; [|assumption..]. destruct E' as [-> E'].
    split; [reflexivity|]. eapply number_inj; [..|exact E']; assumption.
Qed.
Lemma vinteger_inj : forall v w, vinteger_fits v -> vinteger_fits w -> small (write_vinteger v) -> small (write_vinteger w) ->
  write_vinteger v = write_vinteger w -> v = w.
Proof.
  intros v w Hv Hw Sv Sw E. destruct v as [|x|h l], w as [|y|h' l']; cbn [write_vinteger vinteger_fits] in *; try discriminate; [reflexivity| |].
  - apply cons_inj in E. destruct E as [_ E]. apply varint_inj0 in E; [|assumption..]. congruence.
  - apply field_inj0 in E; [|eapply field_small; eassumption..]. destruct E as [_ E].
    apply block_inj in E; try tauto. destruct E as [-> ->]. reflexivity.
Qed.

(** Different messages have different serializations. *)
Lemma write_inj : forall m m', message_fits m -> message_fits m' -> small (write_type m) -> small (write_type m') ->
  write_type m = write_type m' -> m = m'.
Proof.
  induction m as [|b|els IH|b v|b] using mtype_ind'; intros m' Hm Hm' Sm Sm' E;
    destruct m' as [|b'|els'|b' v'|b']; cbn [write_type] in *; try discriminate E; try reflexivity.
  - apply field_inj0 in E; [|eapply field_small; eassumption..]. destruct E as [_ E].
    apply integer_inj in E; [congruence|assumption..].
  - apply field_inj0 in E; [|eapply field_small; eassumption..]. destruct E as [_ E].
    apply field_small in Sm, Sm'. cbn [message_fits] in Hm, Hm'. apply fits_forall in Hm, Hm'. f_equal.
    revert els' Hm' Sm' E. induction els as [|e els IHe]; intros [|e' els'] Hm' Sm' E; cbn [flat_map] in *; try discriminate; [reflexivity|].
    fcons IH IH1 IH2. fcons Hm H1 H2. fcons Hm' H1' H2'.
    apply small_app in Sm, Sm'. destruct Sm as [S1 S2], Sm' as [S1' S2']. apply field_small in S1, S1'.
    apply field_inj in E; [|assumption..]. destruct E as (_ & E1 & E2).
    f_equal; [apply IH1; assumption|]. apply IHe; assumption.
  - apply field_inj0 in E; [|eapply field_small; eassumption..]. destruct E as [_ E].
    apply field_small in Sm, Sm'. apply small_app in Sm, Sm'. destruct Sm as [S1 S2], Sm' as [S1' S2'].
    cbn [message_fits] in Hm, Hm'. destruct Hm as [F1 F2], Hm' as [F1' F2'].
    assert (V : forall v v', small (write_optional 18 write_vinteger v) -> small (write_optional 18 write_vinteger v') ->
      match v with Some v => vinteger_fits v | None => True end -> match v' with Some v => vinteger_fits v | None => True end ->
      write_optional 18 write_vinteger v = write_optional 18 write_vinteger v' -> v = v').
    { clear. intros [v|] [v'|] S S' F F' E; cbn [write_optional] in *; try discriminate; [|reflexivity].
      apply field_inj0 in E; [|eapply field_small; eassumption..]. destruct E as [_ E]. apply field_small in S, S'.
      f_equal. apply vinteger_inj; assumption. }
    destruct b as [b|], b' as [b'|]; cbn [write_optional app] in *.
    + apply field_inj in E; [|eapply field_small; eassumption..]. destruct E as (_ & E1 & E2).
      apply integer_inj in E1; [|assumption..]. apply V in E2; [|assumption..]. congruence.
    + exfalso. destruct v' as [v'|]; cbn [write_optional] in E; unfold encode_field in E; discriminate.
    + exfalso. destruct v as [v|]; cbn [write_optional] in E; unfold encode_field in E; discriminate.
    + apply V in E; [|assumption..]. congruence.
  - apply field_inj0 in E; [|eapply field_small; eassumption..]. destruct E as [_ E].
    apply integer_inj in E; [congruence|assumption..].
Qed.

(** * The messages of C++ types *)

Lemma to_vinteger_fits : forall x, x < 2 ^ 128 -> vinteger_fits (uint128_to_vinteger x).
Proof.
  intros x H. unfold uint128_to_vinteger, vinteger_fits, uint64, hi64, lo64.
  destruct (_ =? 0); repeat split; clear - H; lia.
Qed.
Lemma width_int32 : forall w, cwidth_ok w = true -> int32 (Z.of_N w).
Proof. intros w H. apply cwidth_cases in H. unfold int32. lia. Qed.
Lemma message_of_fits : forall T, cty_ok T = true -> message_fits (message_of T).
Proof.
  induction T as [w|w m|w|ts IH] using cty_ind'; intros H; cbn [cty_ok message_of message_fits] in *.
  - apply width_int32. exact H.
  - apply andb_true_iff in H. destruct H as [H H2]. apply andb_true_iff in H. destruct H as [H1 _].
    split; [apply width_int32; exact H1|]. apply to_vinteger_fits. apply N.ltb_lt in H2.
    eapply N.lt_le_trans; [exact H2|]. apply N.pow_le_mono_r; [lia|]. apply cwidth_cases in H1. lia.
  - apply width_int32. exact H.
  - apply andb_true_iff in H. destruct H as [_ H]. apply fits_forall.
    rewrite forallb_forall in H. apply Forall_forall. intros x Hx. apply in_map_iff in Hx. destruct Hx as (T & <- & HT).
    rewrite Forall_forall in IH. auto.
Qed.
Lemma read_message_of : forall T, read_type (message_of T) = to_value_type T.
Proof.
  induction T as [w|w m|w|ts IH] using cty_ind'; cbn [message_of read_type to_value_type]; try reflexivity.
  f_equal. rewrite map_map. apply map_ext_in. intros T HT. rewrite Forall_forall in IH. auto.
Qed.
Lemma to_vinteger_set : forall x, uint128_to_vinteger x <> VIUnset.
Proof. intros x. unfold uint128_to_vinteger. destruct (_ =? 0); discriminate. Qed.
(** Only the message of a C++ type reads as its type. *)
Lemma reads_as : forall T m, cty_ok T = true -> read_type m = to_value_type T -> m = message_of T.
Proof.
  induction T as [w|w n|w|ts IH] using cty_ind'; intros m Hok E; destruct m as [|b|els|b v|b]; cbn [read_type to_value_type message_of cty_ok] in *;
    try discriminate.
  - congruence.
  - apply andb_true_iff in Hok. destruct Hok as [Hok _]. apply andb_true_iff in Hok. destruct Hok as [Hw _]. apply cwidth_cases in Hw.
    inversion E as [[E1 E2]]. destruct b as [b|]; [|exfalso; clear - E1 Hw; lia].
    destruct v as [v|]; [|exfalso; symmetry in E2; eapply to_vinteger_set; eassumption]. congruence.
  - congruence.
  - apply andb_true_iff in Hok. destruct Hok as [_ Hok]. inversion E as [E']. clear E. f_equal.
    revert els E'. induction ts as [|T ts IHt]; intros [|e els] E; cbn [map forallb] in *; try discriminate; [reflexivity|].
    apply andb_true_iff in Hok. destruct Hok as [H1 H2]. fcons IH I1 I2. inversion E as [[E1 E2]].
    f_equal; [apply I1; assumption|]. apply IHt; assumption.
Qed.
Lemma to_vinteger_inj : forall x y, x < P128 -> y < P128 -> uint128_to_vinteger x = uint128_to_vinteger y -> x = y.
Proof.
  intros x y Hx Hy E. apply vinteger_round_trip in Hx, Hy. rewrite E, Hy in Hx. congruence.
Qed.
Lemma message_of_inj : forall T T', cty_ok T = true -> cty_ok T' = true -> message_of T = message_of T' -> T = T'.
Proof.
  induction T as [w|w n|w|ts IH] using cty_ind'; intros T' H H' E; destruct T' as [w'|w' n'|ts'|w']; cbn [message_of] in E; try discriminate E.
  - inversion E as [E']. apply N2Z.inj in E'. congruence.
  - inversion E as [[E1 E2]]. apply N2Z.inj in E1. apply cty_ok_mod in H, H'. destruct H as (Hw & _ & H), H' as (Hw' & _ & H').
    pose proof (cwidth_le128 _ Hw). pose proof (cwidth_le128 _ Hw'). apply to_vinteger_inj in E2; [congruence|lia..].
  - inversion E as [E']. apply N2Z.inj in E'. congruence.
  - inversion E as [E']. clear E. apply cty_ok_tup in H, H'. destruct H as [_ H], H' as [_ H']. f_equal.
    revert ts' H' E'. induction ts as [|T ts IHt]; intros [|T' ts'] H' E; cbn [map] in E; try discriminate; [reflexivity|].
    fcons IH I1 I2. fcons H H1 H2. fcons H' H1' H2'. inversion E as [[E1 E2]]. f_equal; [apply I1; assumption|]. apply IHt; assumption.
Qed.

(** * The table *)

Lemma bytes_eqb_eq : forall a b, bytes_eqb a b = true <-> a = b.
Proof.
  induction a as [|x a IH]; intros [|y b]; cbn [bytes_eqb]; split; try congruence.
  - intros H. apply andb_true_iff in H. destruct H as [H1 H2]. apply N.eqb_eq in H1. apply IH in H2. congruence.
  - intros E. inversion E. subst. apply andb_true_iff. split; [apply N.eqb_refl|]. apply IH. reflexivity.
Qed.
Lemma find_assign : forall k T t k', find_key k' (assign k T t) = if bytes_eqb k' k then Some T else find_key k' t.
Proof.
  intros k T t k'. induction t as [|[k0 T0] t IH]; cbn [assign find_key]; [reflexivity|].
  destruct (bytes_eqb k k0) eqn:E; cbn [find_key].
  - apply bytes_eqb_eq in E. subst k0. destruct (bytes_eqb k' k); reflexivity.
  - rewrite IH. destruct (bytes_eqb k' k0) eqn:E0; [|reflexivity]. apply bytes_eqb_eq in E0. subst k0.
    destruct (bytes_eqb k' k) eqn:E1; [|reflexivity]. apply bytes_eqb_eq in E1. subst k'.
    rewrite (proj2 (bytes_eqb_eq k k) eq_refl) in E. discriminate.
Qed.
Lemma serialize_ok : forall m k, serialize_value_type m = Ok k <-> k = write_type m /\ N.of_nat (length (write_type m)) < 2 ^ 31.
Proof.
  intros m k. unfold serialize_value_type, check. destruct (N.ltb_spec (N.of_nat (length (write_type m))) (2 ^ 31)); cbn [bind].
  - split; [intros E; inversion E; auto|]. intros [-> _]. reflexivity.
  - split; [discriminate|]. intros [_ C]. lia.
Qed.
Lemma serialize_small : forall m k, serialize_value_type m = Ok k -> small (write_type m).
Proof. intros m k H. apply serialize_ok in H. unfold small. eapply N.lt_trans; [apply H|]. reflexivity. Qed.

(** Two messages with the same key are the same message. *)
Theorem C74_keys : forall m m' k, message_fits m -> message_fits m' ->
  serialize_value_type m = Ok k -> serialize_value_type m' = Ok k -> m = m'.
Proof.
  intros m m' k F F' H H'. pose proof (serialize_small _ _ H). pose proof (serialize_small _ _ H').
  apply serialize_ok in H, H'. destruct H as [-> _], H' as [E _]. apply write_inj; assumption.
Qed.
Print Assumptions C74_keys.

(** Registering types fails only if one of them is too large for a message. *)
Theorem C74_register : forall Ts t,
  (Forall (fun T => is_ok (serialize_value_type (message_of T)) = true) Ts -> is_ok (register_all Ts t) = true) /\
  (Exists (fun T => is_ok (serialize_value_type (message_of T)) = false) Ts -> register_all Ts t = Err INTERNAL).
Proof.
  unfold register_all. induction Ts as [|T Ts IH]; intros t; cbn [foldM]; (split; [|]).
  - reflexivity.
  - intros H. inversion H.
  - intros H. fcons H H1 H2. unfold register_type at 1. destruct (serialize_value_type (message_of T)) as [k| | |]; try discriminate.
    cbn [bind]. apply IH. exact H2.
  - intros H. unfold register_type at 1. destruct (serialize_value_type (message_of T)) as [k|c| |] eqn:E.
    + cbn [bind]. apply IH. inversion H as [? ? H1|? ? H1]; [rewrite E in H1; discriminate|exact H1].
    + unfold serialize_value_type, check in E. destruct (_ <? _); cbn [bind] in E; [discriminate|]. inversion E. reflexivity.
    + unfold serialize_value_type, check in E. destruct (_ <? _); discriminate.
    + unfold serialize_value_type, check in E. destruct (_ <? _); discriminate.
Qed.
Print Assumptions C74_register.

(** What a table contains after any registrations. *)
Definition holds_types (Ts : list cty) (t : table) : Prop :=
  forall k T, find_key k t = Some T <-> In T Ts /\ serialize_value_type (message_of T) = Ok k.
Lemma assign_holds : forall Ts t T k, Forall (fun T => cty_ok T = true) Ts -> cty_ok T = true ->
  holds_types Ts t -> serialize_value_type (message_of T) = Ok k -> holds_types (T :: Ts) (assign k T t).
Proof.
  intros Ts t T k HTs HT H HK k' T'. rewrite find_assign. destruct (bytes_eqb k' k) eqn:E.
  - apply bytes_eqb_eq in E. subst k'. split.
    + intros E. inversion E. subst T'. split; [left; reflexivity|exact HK].
    + intros [[->|HI] HK']; [reflexivity|]. rewrite Forall_forall in HTs. specialize (HTs _ HI).
      assert (EM : message_of T = message_of T') by (eapply C74_keys; eauto using message_of_fits).
      apply message_of_inj in EM; [|assumption..]. congruence.
  - rewrite (H k' T'). split; [intros [HI HK']; split; [right|]; assumption|].
    intros [[->|HI] HK']; [|auto]. rewrite HK in HK'. inversion HK'. subst k'.
    rewrite (proj2 (bytes_eqb_eq k k) eq_refl) in E. discriminate.
Qed.
Lemma register_holds : forall Ts Ts0 t0 t, Forall (fun T => cty_ok T = true) Ts0 -> Forall (fun T => cty_ok T = true) Ts ->
  holds_types Ts0 t0 -> register_all Ts t0 = Ok t -> holds_types (rev Ts ++ Ts0) t.
Proof.
  unfold register_all. induction Ts as [|T Ts IH]; intros Ts0 t0 t H0 H HH HR; cbn [foldM rev app] in *.
  - inversion HR. subst. exact HH.
  - fcons H H1 H2. bind_inv HR. unfold register_type in Hb. bind_inv Hb. inv Hb.
    rewrite <- app_assoc. cbn [app]. eapply IH; [constructor; eassumption|exact H2| |exact HR].
    apply assign_holds; assumption.
Qed.

(** After any registrations, GetValueCorrectionFunction returns the function of the type whose
    message it is given, whichever types were registered and in which order. *)
Theorem C74_lookup : forall Ts t m, Forall (fun T => cty_ok T = true) Ts -> register_all Ts [] = Ok t -> message_fits m ->
  is_ok (serialize_value_type m) = true ->
  (forall T, get_function t m = Ok T <-> In T Ts /\ m = message_of T) /\
  ((forall T, In T Ts -> m <> message_of T) -> get_function t m = Err FAILED_PRECONDITION).
Proof.
  intros Ts t m HTs HR HF HS. assert (HT : holds_types Ts t).
  { assert (H : holds_types (rev Ts ++ []) t).
    { eapply register_holds; [constructor|exact HTs| |exact HR]. intros k T. cbn [find_key]. split; [discriminate|]. intros [[] _]. }
    intros k T. rewrite (H k T), app_nil_r, <- in_rev. reflexivity. }
  unfold get_function. destruct (serialize_value_type m) as [k| | |] eqn:EK; try discriminate. cbn [bind].
  rewrite Forall_forall in HTs. assert (HM : forall T, find_key k t = Some T <-> In T Ts /\ m = message_of T).
  { intros T. rewrite (HT k T). split; intros [HI H]; (split; [exact HI|]).
    - eapply C74_keys; [exact HF|apply message_of_fits; auto|exact EK|exact H].
    - subst m. exact EK. }
  destruct (find_key k t) as [T0|] eqn:E0.
  - split.
    + intros T. rewrite <- HM. split; intros E; inversion E; reflexivity.
    + intros H. exfalso. destruct (proj1 (HM T0) eq_refl) as [HI HE]. exact (H _ HI HE).
  - split; [|reflexivity]. intros T. rewrite <- HM. split; discriminate.
Qed.
Print Assumptions C74_lookup.

(** The model's table of types is a faithful description of the table of serialized types. *)
Theorem C74_model : forall Ts t m d, Forall (fun T => cty_ok T = true) Ts -> register_all Ts [] = Ok t -> message_fits m ->
  is_ok (serialize_value_type m) = true -> (forall T, In T (d_types d) <-> In T Ts) ->
  get_function t m = get_value_correction_function d (read_type m).
Proof.
  intros Ts t m d HTs HR HF HS HD. destruct (C74_lookup Ts t m HTs HR HF HS) as [L1 L2]. rewrite Forall_forall in HTs.
  unfold get_value_correction_function. destruct (find (fun T => ptype_eqb (to_value_type T) (read_type m)) (d_types d)) as [T|] eqn:E.
  - apply find_some in E. destruct E as [HI HE]. apply ptype_eqb_eq in HE. apply HD in HI.
    apply L1. split; [exact HI|]. apply reads_as; [auto|congruence].
  - apply L2. intros T HI ->. apply HD in HI. apply find_none with (x := T) in E; [|exact HI].
    rewrite read_message_of in E. rewrite (proj2 (ptype_eqb_eq _ _) eq_refl) in E. discriminate.
Qed.
Print Assumptions C74_model.

(** A message that describes a C++ type but writes a modulus in another way than ToValueType does is
    never found, whatever is registered. *)
Theorem C74_spelling : forall Ts t m T, Forall (fun T => cty_ok T = true) Ts -> register_all Ts [] = Ok t -> message_fits m ->
  is_ok (serialize_value_type m) = true -> denotes (read_type m) T -> m <> message_of T ->
  get_function t m = Err FAILED_PRECONDITION.
Proof.
  intros Ts t m T HTs HR HF HS HD HN. destruct (C74_lookup Ts t m HTs HR HF HS) as [_ L]. apply L. intros T' HI E.
  rewrite Forall_forall in HTs. specialize (HTs _ HI). pose proof (to_value_type_denotes _ HTs) as D.
  rewrite <- read_message_of, <- E in D. pose proof (denotes_fun _ _ _ HD D). congruence.
Qed.
Print Assumptions C74_spelling.

(** The integers of CreateIncremental, then a tuple with an IntModN, an XorWrapper, and uint32_t once more. *)
Definition xz_tuple : cty := TTup [TMod 64 97; TTup [TInt 32; TXor 128]].
Definition xz_types : list cty := [TInt 8; TInt 16; TInt 32; TInt 64; TInt 128; xz_tuple; TXor 32; TInt 32; TMod 128 (2 ^ 127 + 5)].
Example C74_nonvacuous :
  Forall (fun T => cty_ok T = true) xz_types /\ message_fits (message_of xz_tuple) /\
  write_type (message_of xz_tuple) = [18; 29; 10; 10; 26; 8; 10; 2; 8; 64; 18; 2; 8; 97; 10; 15; 18; 13; 10; 4; 10; 2; 8; 32;
    10; 5; 34; 3; 8; 128; 1] /\
  write_type (MTInteger (-1)) = [10; 11; 8; 255; 255; 255; 255; 255; 255; 255; 255; 255; 1] /\
  exists t, register_all xz_types [] = Ok t /\ length t = 8%nat /\
    get_function t (message_of xz_tuple) = Ok xz_tuple /\ get_function t (MTInteger 32) = Ok (TInt 32) /\ get_function t (MTXor 32) = Ok (TXor 32) /\
    get_function t (MTIntModN (Some 128%Z) (Some (VI128 (2 ^ 63) 5))) = Ok (TMod 128 (2 ^ 127 + 5)) /\
    get_function t (MTXor 64) = Err FAILED_PRECONDITION /\ get_function t MTUnset = Err FAILED_PRECONDITION /\
    (let m := MTTuple [MTIntModN (Some 64%Z) (Some (VI128 0 97)); MTTuple [MTInteger 32; MTXor 128]] in
     message_fits m /\ is_ok (serialize_value_type m) = true /\ denotes (read_type m) xz_tuple /\ m <> message_of xz_tuple /\
     get_function t m = Err FAILED_PRECONDITION) /\
    (forall T, In T (d_types {| d_params := []; d_levels := 0; d_h2t := []; d_blocks := []; d_types := rev xz_types |}) <-> In T xz_types).
Proof.
  split; [repeat constructor|]. split; [apply message_of_fits; reflexivity|]. split; [vm_compute; reflexivity|]. split; [vm_compute; reflexivity|].
  eexists. split; [vm_compute; reflexivity|]. split; [reflexivity|].
  do 6 (split; [vm_compute; reflexivity|]). split.
  - split; [|split; [vm_compute; reflexivity|split; [|split; [vm_compute; discriminate|vm_compute; reflexivity]]]].
    + cbn. unfold int32, uint64. repeat split; lia.
    + apply (denotes_tup [_; _] [_; _]). repeat constructor; [apply (denotes_mod 64); reflexivity|apply (denotes_int 32)|apply (denotes_xor 128)].
  - intros T. cbn [d_types]. rewrite <- in_rev. reflexivity.
Qed.
