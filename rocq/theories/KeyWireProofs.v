(** Lemmas about the serialization of keys and requests. *)
From Coq Require Import List NArith ZArith Bool Lia ZifyBool ZifyNat ZifyN.
From Verif Require Import Base ListUtil ValueTypesModel DpfModel PirModel PirSpec SparseModel SparseDbProofs WireModel KeyWireModel KeyWireSpec.
Import ListNotations.
Open Scope N_scope.

Definition option_bind {A B : Type} (o : option A) (f : A -> option B) : option B :=
  match o with Some x => f x | None => None end.
(** * Fields *)
Lemma varint_shorter : forall fuel b x r, varint_decode fuel b = Some (x, r) -> (length r < length b)%nat.
Proof.
  induction fuel as [|fuel IH]; intros b x r H; [discriminate|]. cbn [varint_decode] in H. destruct b as [|y b]; [discriminate|].
  destruct (y <? 128). { inversion H. cbn [length]. lia. }
  destruct (varint_decode fuel b) as [[z s]|] eqn:E; [|discriminate]. inversion H; subst. apply IH in E. cbn [length]. lia.
Qed.
Lemma take_shorter : forall n b x r, take_bytes n b = Some (x, r) -> (length r <= length b)%nat.
Proof.
  intros n b x r H. unfold take_bytes in H. destruct (_ <? n); [discriminate|]. inversion H. rewrite skipn_length. lia.
Qed.
Lemma wire_shorter : forall t b w r, read_wire t b = Some (w, r) -> (length r <= length b)%nat.
Proof.
  intros t b w r H. unfold read_wire, read_size in H.
  repeat match type of H with
  | context [match varint_decode ?f ?b with _ => _ end] => let E := fresh in destruct (varint_decode f b) as [[? ?]|] eqn:E; [apply varint_shorter in E|]
  | context [match take_bytes ?f ?b with _ => _ end] => let E := fresh in destruct (take_bytes f b) as [[? ?]|] eqn:E; [apply take_shorter in E|]
  | context [if ?b then _ else _] => destruct b
  | context [match ?t with N0 => _ | _ => _ end] => destruct t
  | context [match ?t with xI _ => _ | _ => _ end] => destruct t
  end; try discriminate; inversion H; subst; lia.
Qed.
Lemma fuel_any : forall f1 f2 d g b, (length b <= f1)%nat -> (length b <= f2)%nat -> read_fields f1 d g b = read_fields f2 d g b.
Proof.
  induction f1 as [|f1 IH]; intros f2 d g b H1 H2.
  - destruct b; [|cbn [length] in H1; lia]. destruct f2; reflexivity.
  - destruct b as [|x b]; [destruct f2; reflexivity|]. destruct f2 as [|f2]; [cbn [length] in H2; lia|].
    cbn [read_fields]. destruct (read_tag (x :: b)) as [[t b1]|] eqn:ET; [|reflexivity].
    assert (HL : (length b1 < length (x :: b))%nat).
    { unfold read_tag in ET. destruct (varint_decode 5 (x :: b)) as [[y s]|] eqn:E; [|discriminate]. apply varint_shorter in E. inversion ET; subst. exact E. }
    clear ET. destruct (t / 8 =? 0); [reflexivity|].
    destruct (t mod 8 =? 3). { destruct (Nat.ltb (length g) d); [|reflexivity]. apply IH; lia. }
    destruct (t mod 8 =? 4). { destruct g as [|y g]; [reflexivity|]. destruct (y =? t / 8); [|reflexivity]. apply IH; lia. }
    destruct (read_wire (t mod 8) b1) as [[w b2]|] eqn:EW; [|reflexivity]. apply wire_shorter in EW.
    rewrite (IH f2) by lia. reflexivity.
Qed.
(** The fields of a message. *)
Definition fields (d : nat) (b : bytes) : option (list (N * wire)) := read_fields (length b) d [] b.
(** [b] is the encoding of the fields [fs]. *)
Definition emits (b : bytes) (fs : list (N * wire)) : Prop :=
  forall d rest, fields d (b ++ rest) = option_map (app fs) (fields d rest).
Lemma emits_fields : forall b fs d, emits b fs -> fields d b = Some fs.
Proof. intros b fs d H. specialize (H d []). rewrite app_nil_r in H. rewrite H. cbn. rewrite app_nil_r. reflexivity. Qed.
Lemma emits_read : forall b fs d, emits b fs -> read_fields (length b) d [] b = Some fs.
Proof. exact emits_fields. Qed.
Lemma emits_nil : emits [] [].
Proof. intros d rest. cbn [app]. destruct (fields d rest); reflexivity. Qed.
Lemma emits_app : forall b1 b2 f1 f2, emits b1 f1 -> emits b2 f2 -> emits (b1 ++ b2) (f1 ++ f2).
Proof.
  intros b1 b2 f1 f2 H1 H2 d rest. rewrite <- app_assoc, H1, H2. destruct (fields d rest); cbn [option_map]; [|reflexivity].
  rewrite app_assoc. reflexivity.
Qed.
Lemma emits_flat : forall (A : Type) (w : A -> bytes) (f : A -> N * wire) l, Forall (fun x => emits (w x) [f x]) l -> emits (flat_map w l) (map f l).
Proof.
  intros A w f l HF. induction HF as [|x l Hx HF IH]; [apply emits_nil|]. cbn [flat_map map].
  change (f x :: map f l) with ([f x] ++ map f l). apply emits_app; assumption.
Qed.
Definition tag_ok (tag type : N) : Prop := 8 <= tag < 128 /\ tag mod 8 = type /\ (type = 0 \/ type = 1 \/ type = 2 \/ type = 5).
Lemma read_one : forall tag type b w rest, tag_ok tag type -> (forall r, read_wire type (b ++ r) = Some (w, r)) ->
  forall d, fields d (tag :: b ++ rest) = option_map (app [(tag / 8, w)]) (fields d rest).
Proof.
  intros tag type b w rest (HT & HM & Hty) HW d. unfold fields. cbn [length read_fields].
  assert (ET : read_tag (tag :: b ++ rest) = Some (tag, b ++ rest)).
  { unfold read_tag. cbn [varint_decode]. destruct (N.ltb_spec tag 128); [|lia]. rewrite N.mod_small by lia. reflexivity. }
  rewrite ET. destruct (N.eqb_spec (tag / 8) 0) as [E|_]. { exfalso. clear - E HT. lia. }
  rewrite HM. destruct (N.eqb_spec type 3); [lia|]. destruct (N.eqb_spec type 4); [lia|]. rewrite HW.
  rewrite (fuel_any _ (length rest)) by (rewrite ?app_length; lia).
  destruct (read_fields (length rest) d [] rest); reflexivity.
Qed.
Lemma emits_one : forall tag type b w, tag_ok tag type -> (forall r, read_wire type (b ++ r) = Some (w, r)) -> emits (tag :: b) [(tag / 8, w)].
Proof. intros tag type b w HT HW d rest. cbn [app]. eapply read_one; eassumption. Qed.
Lemma take_app : forall (b r : bytes), take_bytes (N.of_nat (length b)) (b ++ r) = Some (b, r).
Proof.
  intros b r. unfold take_bytes. destruct (N.ltb_spec (N.of_nat (length (b ++ r))) (N.of_nat (length b))) as [C|_]; [rewrite app_length in C; lia|].
  rewrite Nat2N.id, firstn_app_exact, skipn_app_exact by reflexivity. reflexivity.
Qed.
Lemma varint5 : forall fuel x r, x < 2 ^ 35 -> (5 <= fuel)%nat -> varint_decode 5 (varint_encode fuel x ++ r) = Some (x, r).
Proof.
  intros fuel x r Hx Hf.
  assert (E : varint_encode fuel x = varint_encode 5 x).
  { assert (G : forall f1 f2 y, (0 < f1)%nat -> (0 < f2)%nat -> y < 128 ^ N.of_nat f1 -> y < 128 ^ N.of_nat f2 -> varint_encode f1 y = varint_encode f2 y).
    { induction f1 as [|f1 IH]; intros f2 y P1 P2 B1 B2; [lia|]. destruct f2 as [|f2]; [lia|]. cbn [varint_encode].
      destruct (N.ltb_spec y 128) as [L|L]; [reflexivity|]. rewrite Nat2N.inj_succ, N.pow_succ_r' in B1, B2. f_equal.
      assert (D1 : y / 128 < 128 ^ N.of_nat f1) by (apply N.div_lt_upper_bound; lia).
      assert (D2 : y / 128 < 128 ^ N.of_nat f2) by (apply N.div_lt_upper_bound; lia).
      assert (1 <= y / 128) by (apply N.div_le_lower_bound; lia).
      apply IH; try assumption.
      - destruct f1; [cbn in D1; lia|lia].
      - destruct f2; [cbn in D2; lia|lia]. }
    assert (B5 : x < 128 ^ N.of_nat 5) by (eapply N.lt_le_trans; [exact Hx|vm_compute; discriminate]).
    apply G; try lia. eapply N.lt_le_trans; [exact B5|]. apply N.pow_le_mono_r; lia. }
  rewrite E. apply varint_round; [|lia]. eapply N.lt_le_trans; [exact Hx|]. vm_compute. discriminate.
Qed.
Definition fits (b : bytes) : Prop := N.of_nat (length b) <= max_size.
Lemma emits_len : forall tag data, tag_ok tag 2 -> fits data -> emits (encode_field tag data) [(tag / 8, WLen data)].
Proof.
  intros tag data HT HF. unfold encode_field. eapply emits_one; [exact HT|]. intros r. rewrite <- app_assoc. cbn [read_wire].
  unfold read_size. unfold fits, max_size in HF. rewrite varint5 by (clear - HF; lia).
  destruct (N.leb_spec (N.of_nat (length data)) (2 ^ 31 - 17)); [|lia]. rewrite take_app. reflexivity.
Qed.
Lemma emits_varint : forall tag x, tag_ok tag 0 -> x < 2 ^ 64 -> emits (tag :: varint_encode 10 x) [(tag / 8, WVarint x)].
Proof.
  intros tag x HT HX. eapply emits_one; [exact HT|]. intros r. cbn [read_wire].
  rewrite varint_round; [|eapply N.lt_trans; [exact HX|vm_compute; reflexivity]|lia]. rewrite N.mod_small by exact HX. reflexivity.
Qed.
Definition number_fields (n x : N) : list (N * wire) := if x =? 0 then [] else [(n, WVarint x)].
Lemma emits_number : forall tag x, tag_ok tag 0 -> x < 2 ^ 64 -> emits (number_field tag x) (number_fields (tag / 8) x).
Proof.
  intros tag x HT HX. unfold number_field, number_fields. destruct (x =? 0); [apply emits_nil|apply emits_varint; assumption].
Qed.
Lemma emits_fixed32 : forall tag b, tag_ok tag 5 -> length b = 4%nat -> emits (tag :: b) [(tag / 8, WFixed32 b)].
Proof.
  intros tag b HT HL. eapply emits_one; [exact HT|]. intros r. cbn [read_wire].
  replace 4 with (N.of_nat (length b)) by (rewrite HL; reflexivity). rewrite take_app. reflexivity.
Qed.
Ltac tag := unfold tag_ok; vm_compute; repeat split; try discriminate; try reflexivity; auto.
Lemma parse_emits : forall (A : Type) (step : nat -> A -> N * wire -> option A) d m b fs, emits b fs ->
  parse_into step d m b = merge_fields (step d) m fs.
Proof. intros A step d m b fs H. unfold parse_into. fold (fields d b). rewrite (emits_fields _ _ _ H). reflexivity. Qed.
Lemma merge_app : forall (A : Type) (step : A -> N * wire -> option A) f1 f2 m,
  merge_fields step m (f1 ++ f2) = option_bind (merge_fields step m f1) (fun m' => merge_fields step m' f2).
Proof.
  intros A step f1 f2. induction f1 as [|f f1 IH]; intros m; [reflexivity|]. cbn [app merge_fields].
  destruct (step m f); [apply IH|reflexivity].
Qed.
(** Repeated fields are added one after the other, if each of them is nested at most [d] deep. *)
Lemma merge_repeated : forall (A B : Type) (step : A -> N * wire -> option A) (f : B -> N * wire) (depth : B -> nat) (add : A -> list B -> A) d l,
  (forall m, add m [] = m) -> (forall m x l, add (add m [x]) l = add m (x :: l)) ->
  (forall x, In x l -> forall m, step m (f x) = if Nat.leb (S (depth x)) d then Some (add m [x]) else None) ->
  forall m, merge_fields step m (map f l) = if Nat.leb (deepest depth l) d then Some (add m l) else None.
Proof.
  intros A B step f depth add d l H0 H1. induction l as [|x l IH]; intros HS m.
  - cbn [map merge_fields deepest fold_right]. rewrite H0. reflexivity.
  - cbn [map merge_fields]. rewrite HS by (left; reflexivity). change (deepest depth (x :: l)) with (Nat.max (S (depth x)) (deepest depth l)).
    destruct (Nat.leb_spec (S (depth x)) d) as [L|L].
    + rewrite IH by (intros y Hy; apply HS; right; exact Hy). rewrite H1.
      destruct (Nat.leb_spec (deepest depth l) d), (Nat.leb_spec (Nat.max (S (depth x)) (deepest depth l)) d); try lia; reflexivity.
    + destruct (Nat.leb_spec (Nat.max (S (depth x)) (deepest depth l)) d); [lia|reflexivity].
Qed.

(** * Sizes *)
Lemma fits_app : forall a b, fits (a ++ b) -> fits a /\ fits b.
Proof. intros a b. unfold fits. rewrite app_length. lia. Qed.
Lemma fits_field : forall tag b, fits (encode_field tag b) -> fits b.
Proof. intros tag b. unfold fits, encode_field. cbn [length]. rewrite app_length. lia. Qed.
Lemma fits_flat : forall (A : Type) tag (w : A -> bytes) l, fits (flat_map (fun x => encode_field tag (w x)) l) -> Forall (fun x => fits (w x)) l.
Proof.
  intros A tag w l. induction l as [|x l IH]; intros H; constructor; cbn [flat_map] in H; apply fits_app in H; destruct H as [H1 H2].
  - exact (fits_field _ _ H1).
  - exact (IH H2).
Qed.
Lemma emits_repeated : forall (A : Type) tag (w : A -> bytes) l, tag_ok tag 2 -> Forall (fun x => fits (w x)) l ->
  emits (flat_map (fun x => encode_field tag (w x)) l) (map (fun x => (tag / 8, WLen (w x))) l).
Proof.
  intros A tag w l HT HF. apply (emits_flat A (fun x => encode_field tag (w x)) (fun x => (tag / 8, WLen (w x)))).
  eapply Forall_impl; [|exact HF]. intros x Hx. apply emits_len; assumption.
Qed.

(** * Messages *)
Lemma block_round : forall d h l, h < 2 ^ 64 -> l < 2 ^ 64 -> parse_block d (0, 0) (write_block h l) = Some (h, l).
Proof.
  intros d h l Hh Hl. unfold parse_block, write_block.
  erewrite parse_emits by (apply emits_app; apply emits_number; [tag|exact Hh|tag|exact Hl]).
  change (8 / 8) with 1. change (16 / 8) with 2. unfold number_fields.
  destruct (N.eqb_spec h 0) as [-> | _], (N.eqb_spec l 0) as [-> | _]; reflexivity.
Qed.
Lemma uint128_round : forall d x, x < 2 ^ 128 -> parse_uint128 d 0 (write_uint128 x) = Some x.
Proof.
  intros d x Hx. unfold parse_uint128, write_uint128. change (hi64 0, lo64 0) with (0, 0).
  rewrite block_round by (unfold hi64, lo64; apply N.mod_lt; discriminate). f_equal. unfold hi64, lo64.
  change P64 with (2 ^ 64). rewrite (N.mod_small (x / 2 ^ 64)) by (apply N.div_lt_upper_bound; [discriminate|exact Hx]).
  symmetry. apply N.div_mod. discriminate.
Qed.
Lemma vinteger_round : forall d v, vinteger_ok v -> fits (write_vinteger v) ->
  parse_vinteger d VIUnset (write_vinteger v) = if Nat.leb (vinteger_depth v) d then Some v else None.
Proof.
  intros d v Hv HF. destruct v as [|x|h l]; cbn [write_vinteger vinteger_depth vinteger_ok] in *.
  - reflexivity.
  - unfold parse_vinteger. erewrite parse_emits by (apply emits_varint; [tag|exact Hv]). reflexivity.
  - unfold parse_vinteger. erewrite parse_emits by (apply emits_len; [tag|exact (fits_field _ _ HF)]).
    change (18 / 8) with 2. cbn [merge_fields]. destruct d as [|d]; cbn [sub_message]; [reflexivity|].
    destruct Hv. rewrite block_round by assumption. reflexivity.
Qed.
Fixpoint pvalue_rect' (P : pvalue -> Prop) (H0 : P PVUnset) (H1 : forall i, P (PVInteger i)) (H2 : forall els, Forall P els -> P (PVTuple els))
  (H3 : forall i, P (PVIntModN i)) (H4 : forall i, P (PVXor i)) (v : pvalue) : P v :=
  match v with
  | PVUnset => H0
  | PVInteger i => H1 i
  | PVTuple els => H2 els ((fix go l : Forall P l := match l with [] => Forall_nil _ | x :: l' => Forall_cons _ (pvalue_rect' P H0 H1 H2 H3 H4 x) (go l') end) els)
  | PVIntModN i => H3 i
  | PVXor i => H4 i
  end.
Lemma value_ok_tuple : forall els, value_ok (PVTuple els) <-> Forall value_ok els.
Proof.
  intros els. cbn [value_ok]. induction els as [|e els IH]; cbn [fold_right]; [split; auto|].
  rewrite IH. split; [intros []; constructor; assumption|]. intros H. fcons H A B. auto.
Qed.
Lemma value_round : forall v, value_ok v -> fits (write_value v) -> forall d,
  parse_value d PVUnset (write_value v) = if Nat.leb (value_depth v) d then Some v else None.
Proof.
  intros v. induction v using pvalue_rect'; intros HO HF d.
  - destruct d; reflexivity.
  - cbn [write_value] in *. assert (HE : emits (encode_field 10 (write_vinteger i)) [(1, WLen (write_vinteger i))]) by (apply (emits_len 10); [tag|exact (fits_field _ _ HF)]).
    destruct d as [|d]; cbn [parse_value]; rewrite (emits_read _ _ _ HE); cbn [merge_fields value_depth]; [reflexivity|].
    rewrite vinteger_round by (try exact HO; exact (fits_field _ _ HF)). cbn [Nat.leb]. destruct (Nat.leb (vinteger_depth i) d); reflexivity.
  - rename H into IH. apply value_ok_tuple in HO. cbn [write_value] in *.
    set (body := flat_map (fun e => encode_field 10 (write_value e)) els) in *. pose proof (fits_field _ _ HF) as HB.
    assert (HE : emits (encode_field 18 body) [(2, WLen body)]) by (apply (emits_len 18); [tag|exact HB]).
    pose proof (fits_flat _ _ _ _ HB) as HEl.
    assert (HE2 : emits body (map (fun e => (1, WLen (write_value e))) els)) by (apply (emits_repeated _ 10); [tag|exact HEl]).
    destruct d as [|d]; cbn [parse_value]; rewrite (emits_read _ _ _ HE); cbn [merge_fields value_depth]; [reflexivity|].
    fold (fields d body). rewrite (emits_fields _ _ _ HE2).
    rewrite (merge_repeated (list pvalue) pvalue _ _ value_depth (fun m l => m ++ l) d).
    + cbn [app Nat.leb]. destruct (Nat.leb (deepest value_depth els) d); reflexivity.
    + intros m. apply app_nil_r.
    + intros m x l. rewrite <- app_assoc. reflexivity.
    + intros x Hx m. destruct d as [|d]; [reflexivity|]. cbn iota. rewrite (proj1 (Forall_forall _ _) IH x Hx).
      * cbn [Nat.leb]. destruct (Nat.leb (value_depth x) d); reflexivity.
      * exact (proj1 (Forall_forall _ _) HO x Hx).
      * exact (proj1 (Forall_forall _ _) HEl x Hx).
  - cbn [write_value] in *. assert (HE : emits (encode_field 26 (write_vinteger i)) [(3, WLen (write_vinteger i))]) by (apply (emits_len 26); [tag|exact (fits_field _ _ HF)]).
    destruct d as [|d]; cbn [parse_value]; rewrite (emits_read _ _ _ HE); cbn [merge_fields value_depth]; [reflexivity|].
    rewrite vinteger_round by (try exact HO; exact (fits_field _ _ HF)). cbn [Nat.leb]. destruct (Nat.leb (vinteger_depth i) d); reflexivity.
  - cbn [write_value] in *. assert (HE : emits (encode_field 34 (write_vinteger i)) [(4, WLen (write_vinteger i))]) by (apply (emits_len 34); [tag|exact (fits_field _ _ HF)]).
    destruct d as [|d]; cbn [parse_value]; rewrite (emits_read _ _ _ HE); cbn [merge_fields value_depth]; [reflexivity|].
    rewrite vinteger_round by (try exact HO; exact (fits_field _ _ HF)). cbn [Nat.leb]. destruct (Nat.leb (vinteger_depth i) d); reflexivity.
Qed.
Lemma leb_max : forall a b d, Nat.leb (Nat.max a b) d = Nat.leb a d && Nat.leb b d.
Proof. intros a b d. destruct (Nat.leb_spec (Nat.max a b) d), (Nat.leb_spec a d), (Nat.leb_spec b d); try lia; reflexivity. Qed.
Lemma sub_round : forall (A : Type) (parse : nat -> A -> bytes -> option A) (depth : nat) (m v : A) b,
  (forall d, parse d m b = if Nat.leb depth d then Some v else None) ->
  forall d, sub_message parse d m b = if Nat.leb (S depth) d then Some v else None.
Proof. intros A parse depth m v b H [|d]; cbn [sub_message Nat.leb]; [reflexivity|apply H]. Qed.
Lemma cword_round : forall cw, cword_ok cw -> fits (write_cword cw) -> forall d,
  parse_cword d default_cword (write_cword cw) = if Nat.leb (cword_depth cw) d then Some cw else None.
Proof.
  intros [s l r vs] [Hs Hv] HF d. unfold write_cword, cword_depth in *. cbn [cw_seed cw_left cw_right cw_values] in *.
  apply fits_app in HF. destruct HF as [F1 HF]. apply fits_app in HF. destruct HF as [_ HF]. apply fits_app in HF. destruct HF as [_ HF].
  apply fits_flat in HF. unfold parse_cword.
  erewrite parse_emits by (apply emits_app; [apply emits_len; [tag|exact (fits_field _ _ F1)]|apply emits_app; [apply emits_number; [tag|destruct l; vm_compute; reflexivity]|
    apply emits_app; [apply emits_number; [tag|destruct r; vm_compute; reflexivity]|apply emits_repeated; [tag|exact HF]]]]).
  change (10 / 8) with 1. change (16 / 8) with 2. change (24 / 8) with 3. change (42 / 8) with 5.
  rewrite merge_app. cbn [merge_fields cw_seed default_cword cw_left cw_right cw_values]. rewrite leb_max.
  destruct d as [|d]; [reflexivity|]. cbn [sub_message]. rewrite uint128_round by exact Hs. cbn [option_map option_bind Nat.leb andb].
  assert (G : forall b1 b2, merge_fields
    (fun (m : cword) (f : N * wire) =>
    match f with
    | (1, WLen b) =>
        option_map (fun s => {| cw_seed := s; cw_left := cw_left m; cw_right := cw_right m; cw_values := cw_values m |})
          (parse_uint128 d (cw_seed m) b)
    | (2, WVarint x) => Some {| cw_seed := cw_seed m; cw_left := negb (x =? 0); cw_right := cw_right m; cw_values := cw_values m |}
    | (3, WVarint x) => Some {| cw_seed := cw_seed m; cw_left := cw_left m; cw_right := negb (x =? 0); cw_values := cw_values m |}
    | (5, WLen b) =>
        option_map (fun v => {| cw_seed := cw_seed m; cw_left := cw_left m; cw_right := cw_right m; cw_values := cw_values m ++ [v] |})
          (parse_value d PVUnset b)
    | _ => Some m
    end) {| cw_seed := s; cw_left := b1; cw_right := b2; cw_values := [] |} (map (fun x => (5, WLen (write_value x))) vs)
    = if Nat.leb (deepest value_depth vs) (S d) then Some {| cw_seed := s; cw_left := b1; cw_right := b2; cw_values := vs |} else None).
  { intros b1 b2. rewrite (merge_repeated cword pvalue _ _ value_depth
      (fun m l => {| cw_seed := cw_seed m; cw_left := cw_left m; cw_right := cw_right m; cw_values := cw_values m ++ l |}) (S d)).
    - reflexivity.
    - intros [? ? ? ?]. cbn. rewrite app_nil_r. reflexivity.
    - intros [? ? ? ?] x t. cbn. rewrite <- app_assoc. reflexivity.
    - intros x Hx m. cbn iota. rewrite value_round; [|exact (proj1 (Forall_forall _ _) Hv x Hx)|exact (proj1 (Forall_forall _ _) HF x Hx)].
      cbn [Nat.leb]. destruct (Nat.leb (value_depth x) d); reflexivity. }
  destruct l, r; cbn [N.b2n number_fields N.eqb Pos.eqb app merge_fields negb cw_seed cw_left cw_right cw_values]; apply G.
Qed.
Lemma party_round : forall p, (- 2 ^ 31 <= p < 2 ^ 31)%Z -> int32_of (Z.to_N (p mod 2 ^ 64)) = p.
Proof.
  intros p Hp. unfold int32_of. rewrite Z2N.id by (apply Z.mod_pos_bound; reflexivity).
  change (2 ^ 31)%Z with 2147483648%Z in *. change (2 ^ 32)%Z with 4294967296%Z. change (2 ^ 64)%Z with 18446744073709551616%Z. lia.
Qed.
Lemma key_round : forall k, dkey_ok k -> fits (write_key k) -> forall d,
  parse_key d default_key (write_key k) = if Nat.leb (key_depth k) d then Some k else None.
Proof.
  intros [os cws p vs] (Hs & Hc & Hp & Hv) HF d. unfold write_key, key_depth in *. cbn [k_seed k_cws k_party k_last] in *.
  apply fits_app in HF. destruct HF as [F1 HF]. apply fits_app in HF. destruct HF as [F2 HF]. apply fits_app in HF. destruct HF as [_ F3].
  apply fits_flat in F2. apply fits_flat in F3. unfold parse_key.
  assert (E3 : Z.to_N (p mod 2 ^ 64) < 2 ^ 64).
  { apply N2Z.inj_lt. rewrite Z2N.id by (apply Z.mod_pos_bound; reflexivity). apply Z.mod_pos_bound. reflexivity. }
  assert (E1 : emits (write_optional 10 write_uint128 os) (match os with Some s => [(1, WLen (write_uint128 s))] | None => [] end)).
  { destruct os; cbn [write_optional] in *; [apply (emits_len 10); [tag|exact (fits_field _ _ F1)]|apply emits_nil]. }
  erewrite parse_emits by (apply emits_app; [exact E1|apply emits_app; [apply emits_repeated; [tag|exact F2]|
    apply emits_app; [apply emits_number; [tag|exact E3]|apply emits_repeated; [tag|exact F3]]]]).
  clear E3.
  change (18 / 8) with 2. change (24 / 8) with 3. change (42 / 8) with 5. rewrite !leb_max.
  assert (S1 : merge_fields (fun m f => match f with
    | (1, WLen b) =>
        option_map (fun s => {| k_seed := Some s; k_cws := k_cws m; k_party := k_party m; k_last := k_last m |})
          (sub_message parse_uint128 d (match k_seed m with Some s => s | None => 0 end) b)
    | (2, WLen b) =>
        option_map (fun cw => {| k_seed := k_seed m; k_cws := k_cws m ++ [cw]; k_party := k_party m; k_last := k_last m |})
          (sub_message parse_cword d default_cword b)
    | (3, WVarint x) => Some {| k_seed := k_seed m; k_cws := k_cws m; k_party := int32_of x; k_last := k_last m |}
    | (5, WLen b) =>
        option_map (fun v => {| k_seed := k_seed m; k_cws := k_cws m; k_party := k_party m; k_last := k_last m ++ [v] |})
          (sub_message parse_value d PVUnset b)
    | _ => Some m
    end) default_key (match os with Some s => [(1, WLen (write_uint128 s))] | None => [] end)
    = if Nat.leb (match os with Some _ => 1 | None => 0 end) d then Some {| k_seed := os; k_cws := []; k_party := 0; k_last := [] |} else None).
  { destruct os as [s|]; [|reflexivity]. cbn [merge_fields k_seed default_key k_cws k_party k_last].
    rewrite (sub_round N parse_uint128 0 0 s).
    - destruct (Nat.leb 1 d); reflexivity.
    - intros d'. rewrite uint128_round by (apply Hs; reflexivity). reflexivity. }
  rewrite merge_app, S1. destruct (Nat.leb _ d); [|reflexivity]. cbn [option_bind andb]. clear S1 E1 F1.
  rewrite merge_app. rewrite (merge_repeated dkey cword _ _ cword_depth
      (fun m l => {| k_seed := k_seed m; k_cws := k_cws m ++ l; k_party := k_party m; k_last := k_last m |}) d).
  2:{ intros [? ? ? ?]. cbn. rewrite app_nil_r. reflexivity. }
  2:{ intros [? ? ? ?] x t. cbn. rewrite <- app_assoc. reflexivity. }
  2:{ intros x Hx m. cbn iota. rewrite (sub_round cword parse_cword (cword_depth x) default_cword x).
      - destruct (Nat.leb (S (cword_depth x)) d); reflexivity.
      - apply cword_round; [exact (proj1 (Forall_forall _ _) Hc x Hx)|exact (proj1 (Forall_forall _ _) F2 x Hx)]. }
  destruct (Nat.leb (deepest cword_depth cws) d); [|reflexivity]. cbn [option_bind andb k_seed k_cws k_party k_last app].
  rewrite merge_app.
  assert (S2 : forall o c, merge_fields (fun m f => match f with
    | (1, WLen b) =>
        option_map (fun s => {| k_seed := Some s; k_cws := k_cws m; k_party := k_party m; k_last := k_last m |})
          (sub_message parse_uint128 d (match k_seed m with Some s => s | None => 0 end) b)
    | (2, WLen b) =>
        option_map (fun cw => {| k_seed := k_seed m; k_cws := k_cws m ++ [cw]; k_party := k_party m; k_last := k_last m |})
          (sub_message parse_cword d default_cword b)
    | (3, WVarint x) => Some {| k_seed := k_seed m; k_cws := k_cws m; k_party := int32_of x; k_last := k_last m |}
    | (5, WLen b) =>
        option_map (fun v => {| k_seed := k_seed m; k_cws := k_cws m; k_party := k_party m; k_last := k_last m ++ [v] |})
          (sub_message parse_value d PVUnset b)
    | _ => Some m
    end) {| k_seed := o; k_cws := c; k_party := 0; k_last := [] |} (number_fields 3 (Z.to_N (p mod 2 ^ 64)))
    = Some {| k_seed := o; k_cws := c; k_party := p; k_last := [] |}).
  { intros o c. unfold number_fields. pose proof (party_round p Hp) as HP.
    destruct (N.eqb_spec (Z.to_N (p mod 2 ^ 64)) 0) as [E|E].
    - rewrite E in HP. change (int32_of 0) with 0%Z in HP. subst p. reflexivity.
    - cbn [merge_fields k_seed k_cws k_party k_last]. rewrite HP. reflexivity. }
  rewrite S2. cbn [option_bind]. rewrite (merge_repeated dkey pvalue _ _ value_depth
      (fun m l => {| k_seed := k_seed m; k_cws := k_cws m; k_party := k_party m; k_last := k_last m ++ l |}) d).
  - reflexivity.
  - intros [? ? ? ?]. cbn. rewrite app_nil_r. reflexivity.
  - intros [? ? ? ?] x t. cbn. rewrite <- app_assoc. reflexivity.
  - intros x Hx m. cbn iota. rewrite (sub_round pvalue parse_value (value_depth x) PVUnset x).
    + destruct (Nat.leb (S (value_depth x)) d); reflexivity.
    + apply value_round; [exact (proj1 (Forall_forall _ _) Hv x Hx)|exact (proj1 (Forall_forall _ _) F3 x Hx)].
Qed.
Lemma plain_round : forall q, plain_ok q -> fits (write_plain q) -> forall d,
  parse_plain d default_plain (write_plain q) = if Nat.leb (plain_depth q) d then Some q else None.
Proof.
  intros [ks fp] [Hk Hp] HF d. unfold write_plain, plain_depth in *. cbn [pq_keys pq_fingerprint] in *.
  apply fits_app in HF. destruct HF as [F1 _]. apply fits_flat in F1. unfold parse_plain.
  assert (E2 : emits (if fp =? 0 then [] else 21 :: le_encode 4 fp) (if fp =? 0 then [] else [(2, WFixed32 (le_encode 4 fp))])).
  { destruct (fp =? 0); [apply emits_nil|]. apply (emits_fixed32 21); [tag|apply le_encode_length]. }
  erewrite parse_emits by (apply emits_app; [apply emits_repeated; [tag|exact F1]|exact E2]). change (10 / 8) with 1.
  rewrite merge_app. rewrite (merge_repeated plain_request dkey _ _ key_depth
      (fun m l => {| pq_keys := pq_keys m ++ l; pq_fingerprint := pq_fingerprint m |}) d).
  2:{ intros [? ?]. cbn. rewrite app_nil_r. reflexivity. }
  2:{ intros [? ?] x t. cbn. rewrite <- app_assoc. reflexivity. }
  2:{ intros x Hx m. cbn iota. rewrite (sub_round dkey parse_key (key_depth x) default_key x).
      - destruct (Nat.leb (S (key_depth x)) d); reflexivity.
      - apply key_round; [exact (proj1 (Forall_forall _ _) Hk x Hx)|exact (proj1 (Forall_forall _ _) F1 x Hx)]. }
  destruct (Nat.leb (deepest key_depth ks) d); [|reflexivity]. cbn [option_bind default_plain pq_keys pq_fingerprint app].
  destruct (N.eqb_spec fp 0) as [-> | _]; [reflexivity|]. cbn [merge_fields pq_keys].
  rewrite le_decode_encode, N.mod_small by exact Hp. reflexivity.
Qed.
Lemma helper_round : forall h, helper_ok h -> fits (write_helper h) -> forall d,
  parse_helper d (write_helper h) = if Nat.leb (helper_depth h) d then Some h else None.
Proof.
  intros [oq pad] HO HF d. unfold write_helper, helper_depth, helper_ok in *. cbn [hq_plain hq_seed] in *.
  apply fits_app in HF. destruct HF as [F1 F2]. unfold parse_helper, parse_helper_into.
  assert (E1 : emits (write_optional 10 write_plain oq) (match oq with Some q => [(1, WLen (write_plain q))] | None => [] end)).
  { destruct oq; cbn [write_optional] in *; [apply (emits_len 10); [tag|exact (fits_field _ _ F1)]|apply emits_nil]. }
  assert (E2 : emits (match pad with [] => [] | _ => encode_field 18 pad end) (match pad with [] => [] | _ => [(2, WLen pad)] end)).
  { destruct pad; [apply emits_nil|]. apply (emits_len 18); [tag|exact (fits_field _ _ F2)]. }
  erewrite parse_emits by (apply emits_app; [exact E1|exact E2]). clear E1 E2. rewrite merge_app.
  assert (G : forall o, merge_fields (fun m f => match f with
    | (1, WLen b) =>
        option_map (fun q => {| hq_plain := Some q; hq_seed := hq_seed m |})
          (sub_message parse_plain d (match hq_plain m with Some q => q | None => default_plain end) b)
    | (2, WLen b) => Some {| hq_plain := hq_plain m; hq_seed := b |}
    | _ => Some m
    end) {| hq_plain := o; hq_seed := [] |} (match pad with [] => [] | _ => [(2, WLen pad)] end) = Some {| hq_plain := o; hq_seed := pad |}).
  { intros o. destruct pad; reflexivity. }
  destruct oq as [q|]; cbn [merge_fields option_bind hq_plain hq_seed].
  - rewrite (sub_round plain_request parse_plain (plain_depth q) default_plain q).
    + destruct (Nat.leb (S (plain_depth q)) d); [|reflexivity]. cbn [option_map option_bind]. apply G.
    + apply plain_round; [apply HO; reflexivity|exact (fits_field _ _ F1)].
  - apply G.
Qed.

(** * What is parsed *)
Definition wire_ok (w : wire) : Prop :=
  match w with
  | WVarint x => x < 2 ^ 64
  | WFixed64 b => length b = 8%nat /\ is_bytes b
  | WLen b => is_bytes b
  | WFixed32 b => length b = 4%nat /\ is_bytes b
  end.
Lemma is_bytes_app : forall a b, is_bytes (a ++ b) <-> is_bytes a /\ is_bytes b.
Proof. intros a b. unfold is_bytes. apply Forall_app. Qed.
Lemma varint_rest : forall fuel b x r, varint_decode fuel b = Some (x, r) -> is_bytes b -> is_bytes r.
Proof.
  induction fuel as [|fuel IH]; intros b x r H HB; [discriminate|]. cbn [varint_decode] in H. destruct b as [|y b]; [discriminate|].
  inversion HB; subst. destruct (y <? 128). { inversion H; subst. assumption. }
  destruct (varint_decode fuel b) as [[z s]|] eqn:E; [|discriminate]. inversion H; subst. exact (IH _ _ _ E H3).
Qed.
Lemma take_rest : forall n b x r, take_bytes n b = Some (x, r) -> is_bytes b -> N.of_nat (length x) = n /\ is_bytes x /\ is_bytes r.
Proof.
  intros n b x r H HB. unfold take_bytes in H. destruct (N.ltb_spec (N.of_nat (length b)) n); [discriminate|]. inversion H; subst.
  rewrite <- (firstn_skipn (N.to_nat n) b) in HB. apply is_bytes_app in HB. rewrite firstn_length. split; [lia|exact HB].
Qed.
Lemma wire_read_ok : forall t b w r, read_wire t b = Some (w, r) -> is_bytes b -> wire_ok w /\ is_bytes r.
Proof.
  intros t b w r H HB. unfold read_wire, read_size in H.
  repeat match type of H with
  | context [match varint_decode ?f ?b with _ => _ end] => let E := fresh in destruct (varint_decode f b) as [[? ?]|] eqn:E; [apply varint_rest in E; [|assumption]|]
  | context [match take_bytes ?f ?b with _ => _ end] => let E := fresh in destruct (take_bytes f b) as [[? ?]|] eqn:E; [apply take_rest in E; [destruct E as (? & ? & ?)|assumption]|]
  | context [if ?b then _ else _] => destruct b
  | context [match ?t with N0 => _ | _ => _ end] => destruct t
  | context [match ?t with xI _ => _ | _ => _ end] => destruct t
  end; try discriminate; inversion H; subst; cbn [wire_ok]; split; try assumption; try (split; [lia|assumption]); try (apply N.mod_lt; discriminate).

Qed.
Lemma fields_ok : forall fuel d g b fs, read_fields fuel d g b = Some fs -> is_bytes b -> Forall (fun f => wire_ok (snd f)) fs.
Proof.
  induction fuel as [|fuel IH]; intros d g b fs H HB; destruct b as [|x b]; cbn [read_fields] in H.
  - destruct g; [inversion H; constructor|discriminate].
  - discriminate.
  - destruct g; [inversion H; constructor|discriminate].
  - destruct (read_tag (x :: b)) as [[t b1]|] eqn:ET; [|discriminate].
    assert (HB1 : is_bytes b1).
    { unfold read_tag in ET. destruct (varint_decode 5 (x :: b)) as [[y s]|] eqn:E; [|discriminate]. apply varint_rest in E; [|exact HB]. inversion ET; subst. exact E. }
    destruct (t / 8 =? 0); [discriminate|].
    destruct (t mod 8 =? 3). { destruct (Nat.ltb (length g) d); [|discriminate]. eapply IH; eassumption. }
    destruct (t mod 8 =? 4). { destruct g as [|y g]; [discriminate|]. destruct (y =? t / 8); [|discriminate]. eapply IH; eassumption. }
    destruct (read_wire (t mod 8) b1) as [[w b2]|] eqn:EW; [|discriminate]. destruct (wire_read_ok _ _ _ _ EW HB1) as [Hw HB2].
    destruct (read_fields fuel d g b2) as [fs'|] eqn:ER; [|discriminate]. inversion H; subst. specialize (IH _ _ _ _ ER HB2).
    destruct g; [constructor; assumption|exact IH].
Qed.
Lemma merge_inv : forall (A : Type) (P : A -> Prop) (step : A -> N * wire -> option A) fs m m',
  Forall (fun f => wire_ok (snd f)) fs -> (forall m f m', P m -> wire_ok (snd f) -> step m f = Some m' -> P m') ->
  P m -> merge_fields step m fs = Some m' -> P m'.
Proof.
  intros A P step fs. induction fs as [|f fs IH]; intros m m' HF HS HM H; cbn [merge_fields] in H; [inversion H; subst; exact HM|].
  fcons HF H1 H2. destruct (step m f) as [m1|] eqn:E; [|discriminate]. exact (IH _ _ H2 HS (HS _ _ _ HM H1 E) H).
Qed.
Lemma parse_inv : forall (A : Type) (P : A -> Prop) (step : nat -> A -> N * wire -> option A) d b m m',
  is_bytes b -> (forall m f m', P m -> wire_ok (snd f) -> step d m f = Some m' -> P m') ->
  P m -> parse_into step d m b = Some m' -> P m'.
Proof.
  intros A P step d b m m' HB HS HM H. unfold parse_into in H. destruct (read_fields (length b) d [] b) as [fs|] eqn:E; [|discriminate].
  exact (merge_inv A P _ _ _ _ (fields_ok _ _ _ _ _ E HB) HS HM H).
Qed.
Ltac field_cases H n w :=
  repeat match type of H with
  | context [match n with _ => _ end] => destruct n
  | context [match ?t with xI _ => _ | _ => _ end] => destruct t
  | context [match w with _ => _ end] => destruct w
  end.
Lemma block_parsed : forall d b m m', is_bytes b -> fst m < 2 ^ 64 /\ snd m < 2 ^ 64 -> parse_block d m b = Some m' -> fst m' < 2 ^ 64 /\ snd m' < 2 ^ 64.
Proof.
  intros d b m m' HB HM H. revert H. apply (parse_inv (N * N) (fun m => fst m < 2 ^ 64 /\ snd m < 2 ^ 64)); [exact HB| |exact HM].
  intros [h l] [n w] m1 [H1 H2] HW H. cbn [snd fst] in *. field_cases H n w; inversion H; subst; cbn [fst snd wire_ok] in *; auto.
Qed.
Lemma uint128_parsed : forall d b x x', is_bytes b -> parse_uint128 d x b = Some x' -> x' < 2 ^ 128.
Proof.
  intros d b x x' HB H. unfold parse_uint128 in H. destruct (parse_block d (hi64 x, lo64 x) b) as [[h l]|] eqn:E; [|discriminate].
  apply block_parsed in E; [|exact HB|cbn [fst snd]; unfold hi64, lo64; split; apply N.mod_lt; discriminate]. cbn [fst snd] in E. inversion H; subst.
  change (2 ^ 128) with (2 ^ 64 * 2 ^ 64). destruct E. assert (2 ^ 64 * h <= 2 ^ 64 * (2 ^ 64 - 1)) by (apply N.mul_le_mono_l; lia). lia.
Qed.
Lemma vinteger_parsed : forall d b m m', is_bytes b -> vinteger_ok m /\ (vinteger_depth m <= d)%nat -> parse_vinteger d m b = Some m' ->
  vinteger_ok m' /\ (vinteger_depth m' <= d)%nat.
Proof.
  intros d b m m' HB HM H. revert H. apply (parse_inv vinteger (fun m => vinteger_ok m /\ (vinteger_depth m <= d)%nat)); [exact HB| |exact HM].
  intros v [n w] m1 HV HW H. cbn [snd] in *. field_cases H n w; cbn [wire_ok] in HW; try (inversion H; subst; exact HV).
  - destruct d as [|d]; cbn [sub_message] in H; [discriminate|].
    destruct (parse_block d _ b0) as [[h l]|] eqn:E; [|discriminate]. apply block_parsed in E; [|exact HW|].
    + inversion H; subst. cbn [vinteger_ok vinteger_depth]. split; [exact E|lia].
    + destruct v as [|x|h0 l0]; cbn [fst snd]; try (split; reflexivity). destruct HV as [HV _]. exact HV.
  - inversion H; subst. cbn [vinteger_ok vinteger_depth]. split; [exact HW|lia].
Qed.
Lemma deepest_app : forall (A : Type) (f : A -> nat) a b, deepest f (a ++ b) = Nat.max (deepest f a) (deepest f b).
Proof.
  intros A f a b. induction a as [|x a IH]; [reflexivity|].
  change (deepest f ((x :: a) ++ b)) with (Nat.max (S (f x)) (deepest f (a ++ b))). rewrite IH.
  change (deepest f (x :: a)) with (Nat.max (S (f x)) (deepest f a)). lia.
Qed.
Lemma deepest_one : forall (A : Type) (f : A -> nat) x, deepest f [x] = S (f x).
Proof. reflexivity. Qed.
Lemma value_parsed : forall d b m m', is_bytes b -> value_ok m /\ (value_depth m <= d)%nat -> parse_value d m b = Some m' ->
  value_ok m' /\ (value_depth m' <= d)%nat.
Proof.
  intros d. induction d as [d IH] using lt_wf_ind. intros b m m' HB HM H.
  assert (U : exists fs, read_fields (length b) d [] b = Some fs) by (destruct d; cbn [parse_value] in H; destruct (read_fields _ _ _ _) as [fs|]; try discriminate; eauto).
  destruct U as [fs EF]. pose proof (fields_ok _ _ _ _ _ EF HB) as HFS. clear HB.
  destruct d as [|d]; cbn [parse_value] in H; rewrite EF in H; clear EF; revert H.
  - apply (merge_inv pvalue (fun m => value_ok m /\ (value_depth m <= 0)%nat)); [exact HFS| |exact HM].
    intros v [n w] m1 HV _ H. field_cases H n w; inversion H; subst; exact HV.
  - apply (merge_inv pvalue (fun m => value_ok m /\ (value_depth m <= S d)%nat)); [exact HFS| |exact HM].
    assert (HI : forall (C : vinteger -> pvalue) v0 b1 m1, (forall i, value_ok (C i) = vinteger_ok i) -> (forall i, value_depth (C i) = S (vinteger_depth i)) ->
      is_bytes b1 -> vinteger_ok v0 /\ (vinteger_depth v0 <= d)%nat -> option_map C (parse_vinteger d v0 b1) = Some m1 -> value_ok m1 /\ (value_depth m1 <= S d)%nat).
    { intros C v0 b1 m1 HC1 HC2 HB HV H. destruct (parse_vinteger d v0 b1) as [i|] eqn:E; [|discriminate]. apply vinteger_parsed in E; [|assumption..].
      inversion H; subst. rewrite HC1, HC2. split; [apply E|]. destruct E. lia. }
    intros v [n w] m1 HV HW H. cbn [snd] in HW. field_cases H n w; cbn [wire_ok] in HW; try (inversion H; subst; exact HV).
    + eapply (HI PVIntModN); try eassumption; try reflexivity. destruct v; cbn; try (split; [exact I|lia]). destruct HV as [V1 V2]. cbn [value_ok value_depth] in *. split; [exact V1|lia].
    + eapply (HI PVXor); try eassumption; try reflexivity. destruct v; cbn; try (split; [exact I|lia]). destruct HV as [V1 V2]. cbn [value_ok value_depth] in *. split; [exact V1|lia].
    + destruct (read_fields (length b0) d [] b0) as [gs|] eqn:EG; [|discriminate]. apply fields_ok in EG; [|exact HW].
      set (els0 := match v with PVTuple els => els | _ => [] end) in *.
      assert (H0 : Forall value_ok els0 /\ (deepest value_depth els0 <= d)%nat).
      { unfold els0. destruct v; try (split; [constructor|cbn; lia]). destruct HV as [V1 V2]. apply value_ok_tuple in V1. cbn [value_depth] in V2. split; [exact V1|lia]. }
      destruct (merge_fields _ els0 gs) as [els|] eqn:EM; [|discriminate]. cbn [option_map] in H. inversion H; subst. clear H.
      assert (HE : Forall value_ok els /\ (deepest value_depth els <= d)%nat).
      { revert EM. apply (merge_inv (list pvalue) (fun els => Forall value_ok els /\ (deepest value_depth els <= d)%nat)); [exact EG| |exact H0].
        intros l [n w] l1 [L1 L2] HW1 H. cbn [snd] in HW1. destruct d as [|d].
        - field_cases H n w; inversion H; subst; auto.
        - field_cases H n w; cbn [wire_ok] in HW1; try (inversion H; subst; auto; fail).
          destruct (parse_value d PVUnset b1) as [e|] eqn:E; [|discriminate]. cbn [option_map] in H. inversion H; subst.
          apply IH in E; [|lia|exact HW1|split; [exact I|cbn; lia]]. destruct E as [E1 E2]. split.
          + apply Forall_app. auto.
          + rewrite deepest_app, deepest_one. lia. }
      destruct HE as [HE1 HE2]. split; [apply value_ok_tuple; exact HE1|cbn [value_depth]; lia].
    + eapply (HI PVInteger); try eassumption; try reflexivity. destruct v; cbn; try (split; [exact I|lia]). destruct HV as [V1 V2]. cbn [value_ok value_depth] in *. split; [exact V1|lia].
Qed.
Lemma sub_parsed : forall (A : Type) (parse : nat -> A -> bytes -> option A) (P : A -> Prop) d m b m',
  (forall d m', parse d m b = Some m' -> P m') -> sub_message parse d m b = Some m' -> P m'.
Proof. intros A parse P [|d] m b m' H HS; cbn [sub_message] in HS; [discriminate|exact (H _ _ HS)]. Qed.
Lemma value_fresh : forall d b v, is_bytes b -> parse_value d PVUnset b = Some v -> value_ok v.
Proof. intros d b v HB H. apply (value_parsed d b PVUnset v HB); [split; [exact I|cbn; lia]|exact H]. Qed.
Lemma cword_parsed : forall d b m m', is_bytes b -> cword_ok m -> parse_cword d m b = Some m' -> cword_ok m'.
Proof.
  intros d b m m' HB HM H. revert H. apply (parse_inv cword cword_ok); [exact HB| |exact HM].
  intros cw [n w] m1 [C1 C2] HW H. cbn [snd] in *. field_cases H n w; cbn [wire_ok] in HW; try (inversion H; subst; split; cbn [cw_seed cw_values]; assumption);
    match type of H with option_map _ ?e = _ => destruct e eqn:E; [|discriminate] end; inversion H; subst; split; cbn [cw_seed cw_values]; try assumption.
  - apply Forall_app. split; [exact C2|]. constructor; [|constructor]. revert E. apply sub_parsed. intros d1 v1. apply value_fresh. exact HW.
  - revert E. apply (sub_parsed N _ (fun x => x < 2 ^ 128)). intros d1 v1. apply uint128_parsed. exact HW.
Qed.
Lemma key_parsed : forall d b m m', is_bytes b -> dkey_ok m -> parse_key d m b = Some m' -> dkey_ok m'.
Proof.
  intros d b m m' HB HM H. revert H. apply (parse_inv dkey dkey_ok); [exact HB| |exact HM].
  intros k [n w] m1 (K1 & K2 & K3 & K4) HW H. cbn [snd] in *.
  field_cases H n w; cbn [wire_ok] in HW; try (inversion H; subst; repeat split; cbn [k_seed k_cws k_party k_last]; solve [assumption | apply K3]);
    try (match type of H with option_map _ ?e = _ => destruct e eqn:E; [|discriminate] end); inversion H; subst; (split; [|split; [|split]]); cbn [k_seed k_cws k_party k_last]; try assumption.
  - apply Forall_app. split; [exact K4|]. constructor; [|constructor]. revert E. apply sub_parsed. intros d1 v1. apply value_fresh. exact HW.
  - unfold int32_of. change (2 ^ 31)%Z with 2147483648%Z. change (2 ^ 32)%Z with 4294967296%Z. lia.
  - apply Forall_app. split; [exact K2|]. constructor; [|constructor]. revert E. apply sub_parsed. intros d1 v1 E1. eapply cword_parsed; [exact HW| |exact E1].
    split; [reflexivity|constructor].
  - intros s1 [= <-]. revert E. apply (sub_parsed N _ (fun x => x < 2 ^ 128)). intros d1 v1. apply uint128_parsed. exact HW.
Qed.
Lemma default_key_ok : dkey_ok default_key.
Proof. repeat split; try constructor; try discriminate; vm_compute; congruence. Qed.
Lemma plain_parsed : forall d b m m', is_bytes b -> plain_ok m -> parse_plain d m b = Some m' -> plain_ok m'.
Proof.
  intros d b m m' HB HM H. revert H. apply (parse_inv plain_request plain_ok); [exact HB| |exact HM].
  intros q [n w] m1 [Q1 Q2] HW H. cbn [snd] in *. field_cases H n w; cbn [wire_ok] in HW; try (inversion H; subst; split; cbn [pq_keys pq_fingerprint]; assumption).
  - inversion H; subst. split; cbn [pq_keys pq_fingerprint]; [assumption|]. destruct HW as [L _].
    pose proof (le_decode_bound b0) as B. rewrite L in B. exact B.
  - match type of H with option_map _ ?e = _ => destruct e eqn:E; [|discriminate] end. inversion H; subst. split; cbn [pq_keys pq_fingerprint]; [|assumption].
    apply Forall_app. split; [exact Q1|]. constructor; [|constructor]. revert E. apply sub_parsed. intros d1 v1 E1. eapply key_parsed; [exact HW|apply default_key_ok|exact E1].
Qed.
Lemma helper_parsed : forall d b h, is_bytes b -> parse_helper d b = Some h -> helper_ok h /\ is_bytes (hq_seed h).
Proof.
  intros d b h HB H. revert H. unfold parse_helper. apply (parse_inv helper_request (fun h => helper_ok h /\ is_bytes (hq_seed h))); [exact HB| |split; [discriminate|constructor]].
  intros q [n w] m1 [Q1 Q2] HW H. cbn [snd] in *. field_cases H n w; cbn [wire_ok] in HW; try (inversion H; subst; split; cbn [hq_seed]; assumption).
  match type of H with option_map _ ?e = _ => destruct e eqn:E; [|discriminate] end. inversion H; subst. split; cbn [hq_seed]; [|assumption].
  intros p1 [= <-]. revert E. apply sub_parsed. intros d1 v1 E1. eapply plain_parsed; [exact HW| |exact E1].
  destruct (hq_plain q) eqn:EQ; [exact (Q1 _ EQ)|split; [constructor|reflexivity]].
Qed.

(** * What is written are bytes *)
Lemma field_bytes : forall tag b, tag < 256 -> is_bytes b -> is_bytes (encode_field tag b).
Proof. intros tag b HT HB. unfold encode_field. constructor; [exact HT|]. apply is_bytes_app. split; [apply varint_bytes|exact HB]. Qed.
Lemma number_bytes : forall tag x, tag < 256 -> is_bytes (number_field tag x).
Proof. intros tag x HT. unfold number_field. destruct (x =? 0); [constructor|]. constructor; [exact HT|apply varint_bytes]. Qed.
Lemma flat_bytes : forall (A : Type) (w : A -> bytes) l, Forall (fun x => is_bytes (w x)) l -> is_bytes (flat_map w l).
Proof. intros A w l H. induction H; [constructor|]. cbn [flat_map]. apply is_bytes_app. auto. Qed.
Lemma uint128_bytes : forall x, is_bytes (write_uint128 x).
Proof. intros x. apply is_bytes_app. split; apply number_bytes; reflexivity. Qed.
Lemma vinteger_bytes : forall v, is_bytes (write_vinteger v).
Proof.
  intros [|x|h l]; cbn [write_vinteger]; [constructor| |].
  - constructor; [reflexivity|apply varint_bytes].
  - apply field_bytes; [reflexivity|]. apply is_bytes_app. split; apply number_bytes; reflexivity.
Qed.
Lemma value_bytes : forall v, is_bytes (write_value v).
Proof.
  intros v. induction v using pvalue_rect'; cbn [write_value]; try (apply field_bytes; [reflexivity|]; try apply vinteger_bytes); [constructor|].
  apply flat_bytes. eapply Forall_impl; [|exact H]. intros e He. apply field_bytes; [reflexivity|exact He].
Qed.
Lemma repeated_bytes : forall (A : Type) tag (w : A -> bytes) l, tag < 256 -> (forall x, is_bytes (w x)) -> is_bytes (flat_map (fun x => encode_field tag (w x)) l).
Proof. intros A tag w l HT HW. apply flat_bytes. apply Forall_forall. intros x _. apply field_bytes; [exact HT|apply HW]. Qed.
Lemma cword_bytes : forall cw, is_bytes (write_cword cw).
Proof.
  intros cw. unfold write_cword. rewrite !is_bytes_app. repeat split; try (apply number_bytes; reflexivity).
  - apply field_bytes; [reflexivity|apply uint128_bytes].
  - apply repeated_bytes; [reflexivity|apply value_bytes].
Qed.
Lemma key_bytes : forall k, is_bytes (write_key k).
Proof.
  intros k. unfold write_key. rewrite !is_bytes_app. repeat split; try (apply number_bytes; reflexivity).
  - unfold write_optional. destruct (k_seed k); [apply field_bytes; [reflexivity|apply uint128_bytes]|constructor].
  - apply repeated_bytes; [reflexivity|apply cword_bytes].
  - apply repeated_bytes; [reflexivity|apply value_bytes].
Qed.
Lemma le_bytes : forall n x, is_bytes (le_encode n x).
Proof. induction n as [|n IH]; intros x; cbn [le_encode]; [constructor|]. constructor; [apply N.mod_lt; discriminate|apply IH]. Qed.
Lemma plain_bytes : forall q, is_bytes (write_plain q).
Proof.
  intros q. unfold write_plain. rewrite is_bytes_app. split.
  - apply repeated_bytes; [reflexivity|apply key_bytes].
  - destruct (_ =? 0); [constructor|]. constructor; [reflexivity|apply le_bytes].
Qed.
Lemma helper_bytes : forall h, is_bytes (hq_seed h) -> is_bytes (write_helper h).
Proof.
  intros h H. unfold write_helper. rewrite is_bytes_app. split.
  - unfold write_optional. destruct (hq_plain h); [apply field_bytes; [reflexivity|apply plain_bytes]|constructor].
  - destruct (hq_seed h) eqn:E; [constructor|]. apply field_bytes; [reflexivity|exact H].
Qed.
