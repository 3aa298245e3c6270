(** Lemmas about the serialization of evaluation contexts. *)
From Coq Require Import List NArith ZArith Bool Lia ZifyBool ZifyNat ZifyN.
From Verif Require Import Base ListUtil ValueTypesModel ValueTypesSpec DpfModel DpfSpec PirModel PirSpec SparseModel SparseDbProofs WireModel KeyWireModel KeyWireSpec KeyWireProofs ContextWireModel ContextWireSpec.
Import ListNotations.
Open Scope N_scope.

(** * Parsing what was written *)
Lemma emits_fixed64 : forall tag b, tag_ok tag 1 -> length b = 8%nat -> emits (tag :: b) [(tag / 8, WFixed64 b)].
Proof.
  intros tag b HT HL. eapply emits_one; [exact HT|]. intros r. cbn [read_wire].
  replace 8 with (N.of_nat (length b)) by (rewrite HL; reflexivity). rewrite take_app. reflexivity.
Qed.
Lemma int32_bits : forall z, Z.to_N (z mod 2 ^ 64) < 2 ^ 64.
Proof. intros z. apply N2Z.inj_lt. rewrite Z2N.id by (apply Z.mod_pos_bound; reflexivity). apply Z.mod_pos_bound. reflexivity. Qed.
Lemma emits_int32 : forall tag z, tag_ok tag 0 -> emits (int32_field tag z) (number_fields (tag / 8) (Z.to_N (z mod 2 ^ 64))).
Proof. intros tag z HT. apply emits_number; [exact HT|apply int32_bits]. Qed.
(** An int32 field sets the field, if it was zero before. *)
Lemma merge_int32 : forall (A : Type) (step : A -> N * wire -> option A) n z m m', int32_ok z ->
  (z = 0%Z -> m' = m) -> (forall x, int32_of x = z -> step m (n, WVarint x) = Some m') ->
  merge_fields step m (number_fields n (Z.to_N (z mod 2 ^ 64))) = Some m'.
Proof.
  intros A step n z m m' Hz H0 HS. unfold number_fields. pose proof (party_round z Hz) as HP.
  destruct (N.eqb_spec (Z.to_N (z mod 2 ^ 64)) 0) as [E|E].
  - rewrite E in HP. change (int32_of 0) with 0%Z in HP. cbn [merge_fields]. rewrite H0 by auto. reflexivity.
  - cbn [merge_fields]. rewrite (HS _ HP). reflexivity.
Qed.
Lemma integer_round : forall d z, int32_ok z -> parse_integer d 0%Z (write_integer z) = Some z.
Proof.
  intros d z Hz. unfold parse_integer. change (write_integer z) with (int32_field 8 z).
  erewrite parse_emits by (apply emits_int32; tag). change (8 / 8) with 1.
  apply merge_int32; [exact Hz|auto|]. intros x Hx. rewrite Hx. reflexivity.
Qed.
Lemma intmodn_round : forall d z v, int32_ok z -> vinteger_ok v -> fits (write_integer z) -> fits (write_vinteger v) ->
  parse_intmodn d (0%Z, VIUnset) (write_optional 10 write_integer (Some z) ++ write_optional 18 write_vinteger (Some v))
  = if Nat.leb (S (vinteger_depth v)) d then Some (z, v) else None.
Proof.
  intros d z v Hz Hv F1 F2. unfold parse_intmodn. cbn [write_optional].
  erewrite parse_emits by (apply emits_app; apply emits_len; [tag|exact F1|tag|exact F2]).
  change (10 / 8) with 1. change (18 / 8) with 2. cbn [app merge_fields intmodn_step fst snd].
  destruct d as [|d]; [reflexivity|]. cbn [sub_message]. rewrite integer_round by exact Hz. cbn [option_map fst snd].
  rewrite vinteger_round by assumption. cbn [Nat.leb]. destruct (Nat.leb (vinteger_depth v) d); reflexivity.
Qed.
Fixpoint ptype_rect' (P : ptype -> Prop) (H0 : P PTUnset) (H1 : forall i, P (PTInteger i)) (H2 : forall els, Forall P els -> P (PTTuple els))
  (H3 : forall b v, P (PTIntModN b v)) (H4 : forall i, P (PTXor i)) (t : ptype) : P t :=
  match t with
  | PTUnset => H0
  | PTInteger i => H1 i
  | PTTuple els => H2 els ((fix go l : Forall P l := match l with [] => Forall_nil _ | x :: l' => Forall_cons _ (ptype_rect' P H0 H1 H2 H3 H4 x) (go l') end) els)
  | PTIntModN b v => H3 b v
  | PTXor i => H4 i
  end.
Lemma type_ok_tuple : forall els, type_ok (PTTuple els) <-> Forall type_ok els.
Proof.
  intros els. cbn [type_ok]. induction els as [|e els IH]; cbn [fold_right]; [split; [constructor|auto]|].
  rewrite IH. split; [intros [? ?]; constructor; auto|intros H; inversion H; auto].
Qed.
Lemma flat_map_map : forall (A B C : Type) (f : A -> B) (g : B -> list C) l, flat_map g (map f l) = flat_map (fun x => g (f x)) l.
Proof. intros A B C f g l. induction l as [|x l IH]; [reflexivity|]. cbn [map flat_map]. rewrite IH. reflexivity. Qed.
Lemma type_round : forall t, type_ok t -> fits (write_type (whole_type t)) -> forall d,
  parse_type d PTUnset (write_type (whole_type t)) = if Nat.leb (ptype_depth t) d then Some t else None.
Proof.
  intros t. induction t using ptype_rect'; intros HO HF d.
  - destruct d; reflexivity.
  - cbn [write_type whole_type] in *. assert (HE : emits (encode_field 10 (write_integer i)) [(1, WLen (write_integer i))]) by (apply (emits_len 10); [tag|exact (fits_field _ _ HF)]).
    destruct d as [|d]; cbn [parse_type]; rewrite (emits_read _ _ _ HE); cbn [merge_fields ptype_depth]; [reflexivity|].
    rewrite integer_round by exact HO. reflexivity.
  - rename H into IH. apply type_ok_tuple in HO. cbn [write_type whole_type] in *. rewrite flat_map_map in *.
    set (body := flat_map (fun e => encode_field 10 (write_type (whole_type e))) els) in *. pose proof (fits_field _ _ HF) as HB.
    assert (HE : emits (encode_field 18 body) [(2, WLen body)]) by (apply (emits_len 18); [tag|exact HB]).
    pose proof (fits_flat _ _ (fun e => write_type (whole_type e)) _ HB) as HEl.
    assert (HE2 : emits body (map (fun e => (1, WLen (write_type (whole_type e)))) els)) by (apply (emits_repeated _ 10 (fun e => write_type (whole_type e))); [tag|exact HEl]).
    destruct d as [|d]; cbn [parse_type]; rewrite (emits_read _ _ _ HE); cbn [merge_fields ptype_depth]; [reflexivity|].
    fold (fields d body). rewrite (emits_fields _ _ _ HE2).
    rewrite (merge_repeated (list ptype) ptype _ _ ptype_depth (fun m l => m ++ l) d).
    + cbn [app Nat.leb]. destruct (Nat.leb (deepest ptype_depth els) d); reflexivity.
    + intros m. apply app_nil_r.
    + intros m x l. rewrite <- app_assoc. reflexivity.
    + intros x Hx m. destruct d as [|d]; [reflexivity|]. cbn iota. rewrite (proj1 (Forall_forall _ _) IH x Hx).
      * cbn [Nat.leb]. destruct (Nat.leb (ptype_depth x) d); reflexivity.
      * exact (proj1 (Forall_forall _ _) HO x Hx).
      * exact (proj1 (Forall_forall _ _) HEl x Hx).
  - cbn [write_type whole_type] in *. set (body := write_optional 10 write_integer (Some b) ++ write_optional 18 write_vinteger (Some v)) in *.
    pose proof (fits_field _ _ HF) as HB. assert (HE : emits (encode_field 26 body) [(3, WLen body)]) by (apply (emits_len 26); [tag|exact HB]).
    destruct d as [|d]; cbn [parse_type]; rewrite (emits_read _ _ _ HE); cbn [merge_fields ptype_depth]; [reflexivity|].
    apply fits_app in HB. destruct HB as [B1 B2]. destruct HO. unfold body. rewrite intmodn_round by (try assumption; eapply fits_field; eassumption).
    change (Nat.leb (S (S (vinteger_depth v))) (S d)) with (Nat.leb (S (vinteger_depth v)) d).
    destruct (Nat.leb (S (vinteger_depth v)) d); reflexivity.
  - cbn [write_type whole_type] in *. assert (HE : emits (encode_field 34 (write_integer i)) [(4, WLen (write_integer i))]) by (apply (emits_len 34); [tag|exact (fits_field _ _ HF)]).
    destruct d as [|d]; cbn [parse_type]; rewrite (emits_read _ _ _ HE); cbn [merge_fields ptype_depth]; [reflexivity|].
    rewrite integer_round by exact HO. reflexivity.
Qed.
Lemma partial_round : forall e, partial_ok e -> fits (write_partial e) -> forall d,
  parse_partial d default_partial (write_partial e) = if Nat.leb (partial_depth e) d then Some e else None.
Proof.
  intros [x s b] [Hx Hs] HF d. unfold write_partial, parse_partial, partial_depth in *. cbn [pe_prefix pe_seed pe_bit] in *.
  apply fits_app in HF. destruct HF as [F1 HF]. apply fits_app in HF. destruct HF as [F2 _].
  erewrite parse_emits by (apply emits_app; [apply emits_len; [tag|exact (fits_field _ _ F1)]|apply emits_app; [apply emits_len; [tag|exact (fits_field _ _ F2)]|
    apply emits_number; [tag|destruct b; vm_compute; reflexivity]]]).
  change (10 / 8) with 1. change (18 / 8) with 2. change (24 / 8) with 3. cbn [app merge_fields partial_step default_partial pe_prefix pe_seed pe_bit].
  destruct d as [|d]; [reflexivity|]. cbn [sub_message]. rewrite uint128_round by exact Hx. cbn [option_map partial_step pe_prefix pe_seed pe_bit sub_message].
  rewrite uint128_round by exact Hs. destruct b; reflexivity.
Qed.
Section Doubles.
Variables (dbits : dbl -> N) (dval : N -> dbl).
Lemma param_round : forall p, param_ok p -> double_ok dbits dval (p_sec p) -> fits (write_param dbits p) -> forall d,
  parse_param dval d (default_param dval) (write_param dbits p) = if Nat.leb (param_depth p) d then Some p else None.
Proof.
  intros [z o x] [Hz Ho] [Hx Ex] HF d. unfold write_param, parse_param, param_depth in *. cbn [p_ld p_vt p_sec] in *.
  apply fits_app in HF. destruct HF as [_ HF]. apply fits_app in HF. destruct HF as [F2 _].
  assert (E2 : emits (write_optional 26 (fun t => write_type (whole_type t)) o) (match o with Some t => [(3, WLen (write_type (whole_type t)))] | None => [] end)).
  { destruct o; cbn [write_optional] in *; [apply (emits_len 26); [tag|exact (fits_field _ _ F2)]|apply emits_nil]. }
  assert (E3 : emits (if dbits x =? 0 then [] else 33 :: le_encode 8 (dbits x)) (if dbits x =? 0 then [] else [(4, WFixed64 (le_encode 8 (dbits x)))])).
  { destruct (dbits x =? 0); [apply emits_nil|apply (emits_fixed64 33); [tag|apply le_encode_length]]. }
  erewrite parse_emits by (apply emits_app; [apply emits_int32; tag|apply emits_app; [exact E2|exact E3]]).
  change (8 / 8) with 1. rewrite merge_app.
  rewrite (merge_int32 param (param_step dval d) 1 z (default_param dval) {| p_ld := z; p_vt := None; p_sec := dval 0 |} Hz);
    [|intros ->; reflexivity|intros y Hy; cbn [param_step]; rewrite Hy; reflexivity].
  cbn [option_bind]. rewrite merge_app.
  assert (S2 : merge_fields (param_step dval d) {| p_ld := z; p_vt := None; p_sec := dval 0 |} (match o with Some t => [(3, WLen (write_type (whole_type t)))] | None => [] end)
    = if Nat.leb (match o with Some t => S (ptype_depth t) | None => 0 end) d then Some {| p_ld := z; p_vt := o; p_sec := dval 0 |} else None).
  { destruct o as [t|]; [|reflexivity]. cbn [merge_fields param_step p_ld p_vt p_sec write_optional] in *.
    rewrite (sub_round ptype parse_type (ptype_depth t) PTUnset t) by (apply type_round; [apply Ho; reflexivity|exact (fits_field _ _ F2)]).
    destruct (Nat.leb (S (ptype_depth t)) d); reflexivity. }
  rewrite S2. destruct (Nat.leb _ d); [|reflexivity]. cbn [option_bind].
  destruct (N.eqb_spec (dbits x) 0) as [E|E]; cbn [merge_fields param_step p_ld p_vt p_sec].
  - rewrite <- E, Ex. reflexivity.
  - rewrite le_decode_encode, N.mod_small by exact Hx. rewrite Ex. reflexivity.
Qed.
Lemma context_round : forall c, context_ok dbits dval c -> fits (write_context dbits c) -> forall d,
  parse_context dval d (write_context dbits c) = if Nat.leb (context_depth c) d then Some c else None.
Proof.
  intros [ps o z l q] [Hp Hk Hz Hl Hq] HF d. unfold write_context, parse_context, context_depth in *. cbn [c_params c_key c_prev c_partials c_plevel] in *.
  apply fits_app in HF. destruct HF as [F1 HF]. apply fits_app in HF. destruct HF as [F2 HF]. apply fits_app in HF. destruct HF as [_ HF].
  apply fits_app in HF. destruct HF as [F4 _]. apply fits_flat in F1. apply fits_flat in F4.
  assert (E2 : emits (write_optional 18 write_key o) (match o with Some k => [(2, WLen (write_key k))] | None => [] end)).
  { destruct o; cbn [write_optional] in *; [apply (emits_len 18); [tag|exact (fits_field _ _ F2)]|apply emits_nil]. }
  erewrite parse_emits by (apply emits_app; [apply emits_repeated; [tag|exact F1]|apply emits_app; [exact E2|apply emits_app; [apply emits_int32; tag|
    apply emits_app; [apply emits_repeated; [tag|exact F4]|apply emits_int32; tag]]]]).
  change (10 / 8) with 1. change (24 / 8) with 3. change (34 / 8) with 4. change (40 / 8) with 5. rewrite !leb_max.
  rewrite merge_app, (merge_repeated ectx param _ _ param_depth
    (fun m l => {| c_params := c_params m ++ l; c_key := c_key m; c_prev := c_prev m; c_partials := c_partials m; c_plevel := c_plevel m |}) d).
  2:{ intros [? ? ? ? ?]. cbn. rewrite app_nil_r. reflexivity. }
  2:{ intros [? ? ? ? ?] x t. cbn. rewrite <- app_assoc. reflexivity. }
  2:{ intros x Hx m. cbn [context_step]. rewrite (sub_round param (parse_param dval) (param_depth x) (default_param dval) x).
      - destruct (Nat.leb (S (param_depth x)) d); reflexivity.
      - destruct (proj1 (Forall_forall _ _) Hp x Hx). apply param_round; try assumption. exact (proj1 (Forall_forall _ _) F1 x Hx). }
  destruct (Nat.leb (deepest param_depth ps) d); [|reflexivity]. cbn [option_bind andb c_params c_key c_prev c_partials c_plevel app default_context].
  rewrite merge_app.
  assert (S2 : merge_fields (context_step dval d) {| c_params := ps; c_key := None; c_prev := 0; c_partials := []; c_plevel := 0 |} (match o with Some k => [(2, WLen (write_key k))] | None => [] end)
    = if Nat.leb (match o with Some k => S (key_depth k) | None => 0 end) d then Some {| c_params := ps; c_key := o; c_prev := 0; c_partials := []; c_plevel := 0 |} else None).
  { destruct o as [k|]; [|reflexivity]. cbn [merge_fields context_step c_params c_key c_prev c_partials c_plevel write_optional] in *.
    rewrite (sub_round dkey parse_key (key_depth k) default_key k) by (apply key_round; [apply Hk; reflexivity|exact (fits_field _ _ F2)]).
    destruct (Nat.leb (S (key_depth k)) d); reflexivity. }
  rewrite S2. destruct (Nat.leb _ d); [|reflexivity]. cbn [option_bind andb]. rewrite merge_app.
  rewrite (merge_int32 ectx (context_step dval d) 3 z _ {| c_params := ps; c_key := o; c_prev := z; c_partials := []; c_plevel := 0 |} Hz);
    [|intros ->; reflexivity|intros y Hy; cbn [context_step c_params c_key c_prev c_partials c_plevel]; rewrite Hy; reflexivity].
  cbn [option_bind]. rewrite merge_app, (merge_repeated ectx partial _ _ partial_depth
    (fun m l => {| c_params := c_params m; c_key := c_key m; c_prev := c_prev m; c_partials := c_partials m ++ l; c_plevel := c_plevel m |}) d).
  2:{ intros [? ? ? ? ?]. cbn. rewrite app_nil_r. reflexivity. }
  2:{ intros [? ? ? ? ?] x t. cbn. rewrite <- app_assoc. reflexivity. }
  2:{ intros x Hx m. cbn [context_step]. rewrite (sub_round partial parse_partial (partial_depth x) default_partial x).
      - destruct (Nat.leb (S (partial_depth x)) d); reflexivity.
      - apply partial_round; [exact (proj1 (Forall_forall _ _) Hl x Hx)|exact (proj1 (Forall_forall _ _) F4 x Hx)]. }
  destruct (Nat.leb (deepest partial_depth l) d); [|reflexivity]. cbn [option_bind c_params c_key c_prev c_partials c_plevel app].
  apply merge_int32; [exact Hq|intros ->; reflexivity|]. intros y Hy. cbn [context_step c_params c_key c_prev c_partials c_plevel]. rewrite Hy. reflexivity.
Qed.
End Doubles.

(** * Ranges of what was parsed *)
Lemma int32_of_ok : forall x, int32_ok (int32_of x).
Proof. intros x. unfold int32_ok, int32_of. change (2 ^ 31)%Z with 2147483648%Z. change (2 ^ 32)%Z with 4294967296%Z. lia. Qed.
Lemma integer_parsed : forall d b z z', is_bytes b -> int32_ok z -> parse_integer d z b = Some z' -> int32_ok z'.
Proof.
  intros d b z z' HB HZ H. revert H. apply (parse_inv Z int32_ok); [exact HB| |exact HZ].
  intros m [n w] m1 HM HW H. field_cases H n w; inversion H; subst; try exact HM. apply int32_of_ok.
Qed.
Lemma vinteger_parsed' : forall d b m m', is_bytes b -> vinteger_ok m -> parse_vinteger d m b = Some m' -> vinteger_ok m'.
Proof.
  intros d b m m' HB HM H. revert H. apply (parse_inv vinteger vinteger_ok); [exact HB| |exact HM].
  intros v [n w] m1 HV HW H. cbn [snd] in HW. field_cases H n w; cbn [wire_ok] in HW; try (inversion H; subst; exact HV).
  - destruct (sub_message parse_block d _ b0) as [[h l]|] eqn:E; [|discriminate]. inversion H; subst. cbn [vinteger_ok].
    revert E. apply (sub_parsed (N * N) _ (fun x => fst x < 2 ^ 64 /\ snd x < 2 ^ 64)). intros d1 v1 E1. eapply block_parsed; [exact HW| |exact E1].
    destruct v; cbn [fst snd]; try (split; reflexivity). exact HV.
  - inversion H; subst. exact HW.
Qed.
Lemma intmodn_parsed : forall d b m m', is_bytes b -> int32_ok (fst m) /\ vinteger_ok (snd m) -> parse_intmodn d m b = Some m' -> int32_ok (fst m') /\ vinteger_ok (snd m').
Proof.
  intros d b m m' HB HM H. revert H. apply (parse_inv (Z * vinteger) (fun m => int32_ok (fst m) /\ vinteger_ok (snd m))); [exact HB| |exact HM].
  intros v [n w] m1 [V1 V2] HW H. cbn [snd] in HW. unfold intmodn_step in H. field_cases H n w; cbn [wire_ok] in HW; try (inversion H; subst; auto; fail);
    match type of H with option_map _ ?e = _ => destruct e eqn:E; [|discriminate] end; inversion H; subst; cbn [fst snd]; split; try assumption.
  - revert E. apply sub_parsed. intros d1 v1. apply vinteger_parsed'; assumption.
  - revert E. apply sub_parsed. intros d1 v1. apply integer_parsed; assumption.
Qed.
Lemma type_parsed : forall d b m m', is_bytes b -> type_ok m -> parse_type d m b = Some m' -> type_ok m'.
Proof.
  intros d. induction d as [d IH] using lt_wf_ind. intros b m m' HB HM H.
  assert (U : exists fs, read_fields (length b) d [] b = Some fs) by (destruct d; cbn [parse_type] in H; destruct (read_fields _ _ _ _) as [fs|]; try discriminate; eauto).
  destruct U as [fs EF]. pose proof (fields_ok _ _ _ _ _ EF HB) as HFS. clear HB.
  destruct d as [|d]; cbn [parse_type] in H; rewrite EF in H; clear EF; revert H.
  - apply (merge_inv ptype type_ok); [exact HFS| |exact HM].
    intros v [n w] m1 HV _ H. field_cases H n w; inversion H; subst; exact HV.
  - apply (merge_inv ptype type_ok); [exact HFS| |exact HM].
    assert (H00 : int32_ok 0) by (vm_compute; split; congruence).
    intros v [n w] m1 HV HW H. cbn [snd] in HW. field_cases H n w; cbn [wire_ok] in HW; try (inversion H; subst; exact HV).
    + destruct (parse_intmodn d _ b0) as [[z x]|] eqn:E; [|discriminate]. apply intmodn_parsed in E; [|exact HW|destruct v; cbn [fst snd]; try (split; [exact H00|exact I]); exact HV].
      inversion H; subst. exact E.
    + destruct (parse_integer d _ b0) as [z|] eqn:E; [|discriminate]. apply integer_parsed in E; [|exact HW|destruct v; try exact H00; exact HV]. inversion H; subst. exact E.
    + destruct (read_fields (length b0) d [] b0) as [gs|] eqn:EG; [|discriminate]. apply fields_ok in EG; [|exact HW].
      set (els0 := match v with PTTuple els => els | _ => [] end) in *.
      assert (H0 : Forall type_ok els0) by (unfold els0; destruct v; try constructor; apply type_ok_tuple; exact HV).
      destruct (merge_fields _ els0 gs) as [els|] eqn:EM; [|discriminate]. cbn [option_map] in H. inversion H; subst. clear H.
      apply type_ok_tuple. revert EM. apply (merge_inv (list ptype) (Forall type_ok)); [exact EG| |exact H0].
      intros l [n w] l1 L1 HW1 H. cbn [snd] in HW1. destruct d as [|d].
      * field_cases H n w; inversion H; subst; auto.
      * field_cases H n w; cbn [wire_ok] in HW1; try (inversion H; subst; auto; fail).
        destruct (parse_type d PTUnset b1) as [e|] eqn:E; [|discriminate]. cbn [option_map] in H. inversion H; subst.
        apply IH in E; [|lia|exact HW1|exact I]. apply Forall_app. auto.
    + destruct (parse_integer d _ b0) as [z|] eqn:E; [|discriminate]. apply integer_parsed in E; [|exact HW|destruct v; try exact H00; exact HV]. inversion H; subst. exact E.
Qed.
Lemma partial_parsed : forall d b m m', is_bytes b -> partial_ok m -> parse_partial d m b = Some m' -> partial_ok m'.
Proof.
  intros d b m m' HB HM H. revert H. apply (parse_inv partial partial_ok); [exact HB| |exact HM].
  intros e [n w] m1 [C1 C2] HW H. cbn [snd] in *. unfold partial_step in H. field_cases H n w; cbn [wire_ok] in HW; try (inversion H; subst; split; assumption);
    match type of H with option_map _ ?e = _ => destruct e eqn:E; [|discriminate] end; inversion H; subst; split; cbn [pe_prefix pe_seed]; try assumption;
    revert E; apply (sub_parsed N _ (fun x => x < 2 ^ 128)); intros d1 v1; apply uint128_parsed; exact HW.
Qed.
Section Parsed.
Variables (dbits : dbl -> N) (dval : N -> dbl).
Hypothesis HD : forall n, n < 2 ^ 64 -> double_ok dbits dval (dval n).
Lemma param_parsed : forall d b m m', is_bytes b -> param_ok m /\ double_ok dbits dval (p_sec m) -> parse_param dval d m b = Some m' ->
  param_ok m' /\ double_ok dbits dval (p_sec m').
Proof.
  intros d b m m' HB HM H. revert H. apply (parse_inv param (fun m => param_ok m /\ double_ok dbits dval (p_sec m))); [exact HB| |exact HM].
  intros p [n w] m1 [[P1 P2] P3] HW H. cbn [snd] in *. unfold param_step in H. field_cases H n w; cbn [wire_ok] in HW; try (inversion H; subst; split; [split|]; assumption).
  - match type of H with option_map _ ?e = _ => destruct e eqn:E; [|discriminate] end. inversion H; subst. split; [split|]; cbn [p_ld p_vt p_sec]; try assumption.
    intros t [= <-]. revert E. apply sub_parsed. intros d1 v1. apply type_parsed; [exact HW|]. destruct (p_vt p) as [t|]; [apply P2; reflexivity|exact I].
  - inversion H; subst. split; [split|]; cbn [p_ld p_vt p_sec]; try assumption. apply HD. destruct HW as [L _].
    pose proof (le_decode_bound b0) as B. rewrite L in B. exact B.
  - inversion H; subst. split; [split|]; cbn [p_ld p_vt p_sec]; try assumption. apply int32_of_ok.
Qed.
Lemma context_parsed : forall limit b c, is_bytes b -> parse_context dval limit b = Some c -> context_ok dbits dval c.
Proof.
  assert (H00 : int32_ok 0) by (vm_compute; split; congruence).
  intros limit b c HB H. revert H. apply (parse_inv ectx (context_ok dbits dval)); [exact HB| |constructor; cbn; auto; discriminate].
  intros m [n w] m1 [P1 P2 P3 P4 P5] HW H. cbn [snd] in *. unfold context_step in H.
  field_cases H n w; cbn [wire_ok] in HW; try (inversion H; subst; constructor; assumption);
    try (match type of H with option_map _ ?e = _ => destruct e eqn:E; [|discriminate] end); inversion H; subst; constructor; cbn [c_params c_key c_prev c_partials c_plevel]; try assumption; try apply int32_of_ok.
  - apply Forall_app. split; [exact P4|]. constructor; [|constructor]. revert E. apply sub_parsed. intros d1 v1. apply partial_parsed; [exact HW|split; reflexivity].
  - intros k [= <-]. revert E. apply sub_parsed. intros d1 v1. apply key_parsed; [exact HW|]. destruct (c_key m) as [k|]; [apply P2; reflexivity|exact default_key_ok].
  - apply Forall_app. split; [exact P1|]. constructor; [|constructor]. revert E.
    apply (sub_parsed param _ (fun m => param_ok m /\ double_ok dbits dval (p_sec m))). intros d1 v1. apply param_parsed; [exact HW|].
    split; [split; [exact H00|discriminate]|]. apply HD. reflexivity.
Qed.
End Parsed.

(** * Bytes *)
Lemma type_bytes : forall t, is_bytes (write_type t).
Proof.
  fix IH 1. intros [|b|els|b v|b]; cbn [write_type]; [constructor|apply field_bytes; [reflexivity|apply number_bytes; reflexivity]| | |apply field_bytes; [reflexivity|apply number_bytes; reflexivity]].
  - apply field_bytes; [reflexivity|]. induction els as [|e els IHl]; [constructor|]. cbn [flat_map]. apply is_bytes_app. split; [apply field_bytes; [reflexivity|apply IH]|exact IHl].
  - apply field_bytes; [reflexivity|]. apply is_bytes_app. split.
    + destruct b; cbn [write_optional]; [apply field_bytes; [reflexivity|apply number_bytes; reflexivity]|constructor].
    + destruct v; cbn [write_optional]; [apply field_bytes; [reflexivity|apply vinteger_bytes]|constructor].
Qed.
Lemma context_bytes : forall dbits c, is_bytes (write_context dbits c).
Proof.
  intros dbits c. unfold write_context. apply is_bytes_app. split; [|apply is_bytes_app; split; [|apply is_bytes_app; split; [|apply is_bytes_app; split]]].
  - apply repeated_bytes; [reflexivity|]. intros p. unfold write_param. apply is_bytes_app. split; [apply number_bytes; reflexivity|apply is_bytes_app; split].
    + destruct (p_vt p); cbn [write_optional]; [apply field_bytes; [reflexivity|apply type_bytes]|constructor].
    + destruct (_ =? 0); constructor; [reflexivity|apply le_bytes].
  - destruct (c_key c); cbn [write_optional]; [apply field_bytes; [reflexivity|apply key_bytes]|constructor].
  - apply number_bytes. reflexivity.
  - apply repeated_bytes; [reflexivity|]. intros e. unfold write_partial. apply is_bytes_app. split; [apply field_bytes; [reflexivity|apply uint128_bytes]|].
    apply is_bytes_app. split; [apply field_bytes; [reflexivity|apply uint128_bytes]|apply number_bytes; reflexivity].
  - apply number_bytes. reflexivity.
Qed.
