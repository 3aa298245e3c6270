(** Lemmas about the serialization of the messages between the parties. *)
From Coq Require Import List NArith ZArith Bool Lia ZifyBool ZifyNat ZifyN.
From Verif Require Import Base ListUtil ValueTypesModel DpfModel DcfModel HashModel PirModel PirSpec SparseModel SparseDbProofs WireModel KeyWireModel KeyWireSpec KeyWireProofs
  ContextWireModel ContextWireSpec ContextWireProofs MessageWireModel MessageWireSpec.
Import ListNotations.
Open Scope N_scope.

(** * Parsing what was written *)
Lemma parse_one : forall (A : Type) (step : nat -> A -> N * wire -> option A) tag b d m, tag_ok tag 2 -> fits b ->
  parse_into step d m (encode_field tag b) = step d m (tag / 8, WLen b).
Proof.
  intros A step tag b d m HT HF. erewrite parse_emits by (apply emits_len; eassumption). cbn [merge_fields].
  destruct (step d m (tag / 8, WLen b)); reflexivity.
Qed.
Definition bytes_fields (n : N) (b : bytes) : list (N * wire) := match b with [] => [] | _ => [(n, WLen b)] end.
Lemma emits_bytes : forall tag b, tag_ok tag 2 -> fits (bytes_field tag b) -> emits (bytes_field tag b) (bytes_fields (tag / 8) b).
Proof.
  intros tag [|x b] HT HF; [apply emits_nil|]. cbn [bytes_field bytes_fields]. apply emits_len; [exact HT|]. exact (fits_field _ _ HF).
Qed.
Lemma merge_bytes : forall (A : Type) (step : A -> N * wire -> option A) n b m m',
  (b = [] -> m' = m) -> step m (n, WLen b) = Some m' -> merge_fields step m (bytes_fields n b) = Some m'.
Proof. intros A step n [|x b] m m' H0 HS; cbn [bytes_fields merge_fields]; [rewrite H0 by reflexivity; reflexivity|]. rewrite HS. reflexivity. Qed.
Lemma emits_strings : forall tag l, tag_ok tag 2 -> fits (strings_field tag l) -> emits (strings_field tag l) (map (fun b => (tag / 8, WLen b)) l).
Proof.
  intros tag l HT HF. apply (emits_repeated bytes tag (fun b => b)); [exact HT|]. exact (fits_flat bytes tag (fun b => b) l HF).
Qed.
Lemma merge_strings : forall (A : Type) (step : A -> N * wire -> option A) n (add : A -> list bytes -> A) l,
  (forall m, add m [] = m) -> (forall m x l, add (add m [x]) l = add m (x :: l)) ->
  (forall m x, step m (n, WLen x) = Some (add m [x])) -> forall m, merge_fields step m (map (fun b => (n, WLen b)) l) = Some (add m l).
Proof.
  intros A step n add l H0 H1 HS. induction l as [|x l IH]; intros m; cbn [map merge_fields]; [rewrite H0; reflexivity|].
  rewrite HS, IH, H1. reflexivity.
Qed.
Lemma encrypted_round : forall e d, fits (bytes_field 10 e) -> parse_encrypted d [] (bytes_field 10 e) = Some e.
Proof.
  intros e d HF. unfold parse_encrypted. erewrite parse_emits by (apply emits_bytes; [tag|exact HF]).
  change (10 / 8) with 1. apply merge_bytes; [auto|reflexivity].
Qed.
Lemma leader_round : forall p e, (forall q, p = Some q -> plain_ok q) -> fits (write_leader p e) -> forall d,
  parse_leader d (None, None) (write_leader p e) = if Nat.leb (leader_depth p e) d then Some (p, e) else None.
Proof.
  intros p e HP HF d. unfold write_leader, parse_leader, leader_depth in *. apply fits_app in HF. destruct HF as [F1 F2].
  assert (E1 : emits (write_optional 10 write_plain p) (match p with Some q => [(1, WLen (write_plain q))] | None => [] end)).
  { destruct p; cbn [write_optional] in *; [apply (emits_len 10); [tag|exact (fits_field _ _ F1)]|apply emits_nil]. }
  assert (E2 : emits (write_optional 18 write_encrypted e) (match e with Some q => [(2, WLen (write_encrypted q))] | None => [] end)).
  { destruct e; cbn [write_optional] in *; [apply (emits_len 18); [tag|exact (fits_field _ _ F2)]|apply emits_nil]. }
  erewrite parse_emits by (apply emits_app; [exact E1|exact E2]). rewrite merge_app, leb_max.
  assert (S1 : merge_fields (leader_step d) (None, None) (match p with Some q => [(1, WLen (write_plain q))] | None => [] end)
    = if Nat.leb (match p with Some p => S (plain_depth p) | None => 0 end) d then Some (p, None) else None).
  { destruct p as [q|]; [|reflexivity]. cbn [merge_fields leader_step fst snd write_optional] in *.
    rewrite (sub_round plain_request parse_plain (plain_depth q) default_plain q) by (apply plain_round; [apply HP; reflexivity|exact (fits_field _ _ F1)]).
    destruct (Nat.leb (S (plain_depth q)) d); reflexivity. }
  rewrite S1. destruct (Nat.leb _ d); [|reflexivity]. cbn [option_bind andb].
  destruct e as [q|]; [|reflexivity]. cbn [merge_fields leader_step fst snd write_optional] in *.
  rewrite (sub_round bytes parse_encrypted 0 [] q) by (intros d1; apply encrypted_round; exact (fits_field _ _ F2)).
  destruct (Nat.leb 1 d); reflexivity.
Qed.
Lemma request_round : forall r, request_ok r -> fits (write_request r) -> forall d,
  parse_request d (write_request r) = if Nat.leb (request_depth r) d then Some r else None.
Proof.
  intros r HO HF d. unfold parse_request. destruct r as [| |p|p e|e]; cbn [write_request request_depth request_ok] in *; [reflexivity| | | |].
  all: (rewrite parse_one; [|tag|exact (fits_field _ _ HF)]); apply fits_field in HF; change (10 / 8) with 1; cbv beta iota.
  - rewrite (sub_round request parse_dpf_request 0 RqDpfUnset RqDpfUnset) by (intros d1; reflexivity). reflexivity.
  - rewrite (sub_round request parse_dpf_request (S (plain_depth p)) RqDpfUnset (RqPlain p)); [reflexivity|]. intros d1. unfold parse_dpf_request.
    rewrite parse_one; [|tag|exact (fits_field _ _ HF)]. change (10 / 8) with 1. cbn [dpf_request_step].
    rewrite (sub_round plain_request parse_plain (plain_depth p) default_plain p) by (apply plain_round; [exact HO|exact (fits_field _ _ HF)]).
    destruct (Nat.leb (S (plain_depth p)) d1); reflexivity.
  - rewrite (sub_round request parse_dpf_request (S (leader_depth p e)) RqDpfUnset (RqLeader p e)); [reflexivity|]. intros d1. unfold parse_dpf_request.
    rewrite parse_one; [|tag|exact (fits_field _ _ HF)]. change (18 / 8) with 2. cbn [dpf_request_step].
    rewrite (sub_round _ parse_leader (leader_depth p e) (None, None) (p, e)) by (apply leader_round; [exact HO|exact (fits_field _ _ HF)]).
    destruct (Nat.leb (S (leader_depth p e)) d1); reflexivity.
  - rewrite (sub_round request parse_dpf_request 1 RqDpfUnset (RqHelper e)); [reflexivity|]. intros d1. unfold parse_dpf_request.
    rewrite parse_one; [|tag|exact (fits_field _ _ HF)]. change (26 / 8) with 3. cbn [dpf_request_step].
    rewrite (sub_round bytes parse_encrypted 0 [] e) by (intros d2; apply encrypted_round; exact (fits_field _ _ HF)).
    destruct (Nat.leb 1 d1); reflexivity.
Qed.
Lemma strings_round : forall l d, fits (strings_field 10 l) -> parse_strings d [] (strings_field 10 l) = Some l.
Proof.
  intros l d HF. unfold parse_strings. erewrite parse_emits by (apply emits_strings; [tag|exact HF]). change (10 / 8) with 1.
  rewrite (merge_strings (list bytes) _ 1 (fun m l => m ++ l)); [reflexivity|intros m; apply app_nil_r| |reflexivity].
  intros m x t. rewrite <- app_assoc. reflexivity.
Qed.
Lemma response_round : forall r, fits (write_response r) -> forall d,
  parse_response d (write_response r) = if Nat.leb (response_depth r) d then Some r else None.
Proof.
  intros [l|] HF d; [|reflexivity]. unfold parse_response, write_response, response_depth in *. cbn [write_optional] in *. apply fits_field in HF.
  rewrite parse_one; [|tag|exact HF]. change (10 / 8) with 1. cbv beta iota.
  rewrite (sub_round _ parse_strings 0 [] l) by (intros d1; apply strings_round; exact HF). destruct (Nat.leb 1 d); reflexivity.
Qed.
Lemma queries_round : forall s l d, fits (write_queries s l) -> parse_queries d ([], []) (write_queries s l) = Some (s, l).
Proof.
  intros s l d HF. unfold parse_queries, write_queries in *. apply fits_app in HF. destruct HF as [F1 F2].
  erewrite parse_emits by (apply emits_app; [apply emits_bytes; [tag|exact F1]|apply emits_strings; [tag|exact F2]]).
  change (10 / 8) with 1. change (18 / 8) with 2. rewrite merge_app.
  rewrite (merge_bytes _ (queries_step d) 1 s ([], []) (s, [])) by (first [intros ->; reflexivity|reflexivity]). cbn [option_bind].
  rewrite (merge_strings _ _ 2 (fun (m : bytes * list bytes) l => (fst m, snd m ++ l))); [reflexivity| | |reflexivity].
  - intros [x m]. cbn. rewrite app_nil_r. reflexivity.
  - intros [y m] x t. cbn. rewrite <- app_assoc. reflexivity.
Qed.
Lemma state_round : forall s, fits (write_state s) -> forall d, parse_state d (write_state s) = if Nat.leb (state_depth s) d then Some s else None.
Proof.
  intros [|s|s l|s l] HF d; unfold parse_state, state_depth; cbn [write_state] in *; [reflexivity|..]; apply fits_field in HF;
    (rewrite parse_one; [|tag|exact HF]).
  - change (10 / 8) with 1. cbn [state_step]. rewrite (sub_round bytes parse_encrypted 0 [] s) by (intros d2; apply encrypted_round; exact HF). destruct (Nat.leb 1 d); reflexivity.
  - change (18 / 8) with 2. cbn [state_step]. rewrite (sub_round _ parse_queries 0 ([], []) (s, l)) by (intros d2; apply queries_round; exact HF). destruct (Nat.leb 1 d); reflexivity.
  - change (26 / 8) with 3. cbn [state_step]. rewrite (sub_round _ parse_queries 0 ([], []) (s, l)) by (intros d2; apply queries_round; exact HF). destruct (Nat.leb 1 d); reflexivity.
Qed.
Lemma int64_round : forall z, int64_ok z -> int64_of (Z.to_N (z mod 2 ^ 64)) = z.
Proof.
  intros z Hz. unfold int64_of, int64_ok in *. rewrite Z2N.id by (apply Z.mod_pos_bound; reflexivity).
  change (2 ^ 63)%Z with 9223372036854775808%Z in *. change (2 ^ 64)%Z with 18446744073709551616%Z. lia.
Qed.
Lemma merge_int64 : forall (A : Type) (step : A -> N * wire -> option A) n z m m', int64_ok z ->
  (z = 0%Z -> m' = m) -> (forall x, int64_of x = z -> step m (n, WVarint x) = Some m') ->
  merge_fields step m (number_fields n (Z.to_N (z mod 2 ^ 64))) = Some m'.
Proof.
  intros A step n z m m' Hz H0 HS. unfold number_fields. pose proof (int64_round z Hz) as HP.
  destruct (N.eqb_spec (Z.to_N (z mod 2 ^ 64)) 0) as [E|E].
  - rewrite E in HP. change (int64_of 0) with 0%Z in HP. cbn [merge_fields]. rewrite H0 by auto. reflexivity.
  - cbn [merge_fields]. rewrite (HS _ HP). reflexivity.
Qed.
Lemma hash_config_round : forall h d, int32_ok (hf_family h) -> fits (write_hash_config h) ->
  parse_hash_config d default_hash_config (write_hash_config h) = Some h.
Proof.
  intros [f s] d Hf HF. unfold parse_hash_config, write_hash_config in *. cbn [hf_family hf_seed] in *. apply fits_app in HF. destruct HF as [_ F2].
  erewrite parse_emits by (apply emits_app; [apply emits_int32; tag|apply emits_bytes; [tag|exact F2]]). change (8 / 8) with 1. change (18 / 8) with 2. rewrite merge_app.
  rewrite (merge_int32 _ (hash_config_step d) 1 f _ {| hf_family := f; hf_seed := [] |} Hf);
    [|intros ->; reflexivity|intros x Hx; cbn [hash_config_step]; rewrite Hx; reflexivity].
  cbn [option_bind]. apply merge_bytes; [intros ->; reflexivity|reflexivity].
Qed.
Lemma public_params_round : forall p, public_params_ok p -> fits (write_public_params p) -> forall d,
  parse_public_params d (write_public_params p) = if Nat.leb (public_params_depth p) d then Some p else None.
Proof.
  intros [|p|p] HO HF d; unfold parse_public_params, public_params_depth; cbn [write_public_params public_params_ok] in *; [reflexivity|..]; apply fits_field in HF;
    (rewrite parse_one; [|tag|exact HF]); apply fits_app in HF; destruct HF as [F1 _].
  - destruct p as [h f b]. cbn [cp_hash cp_functions cp_buckets] in *. destruct HO as (O1 & O2 & O3).
    change (10 / 8) with 1. cbn [public_params_step].
    rewrite (sub_round cuckoo_params (parse_into cuckoo_params_step) 1 default_cuckoo_params {| cp_hash := h; cp_functions := f; cp_buckets := b |}); [destruct (Nat.leb 2 d); reflexivity|].
    intros d1. erewrite parse_emits by (apply emits_app; [apply emits_len; [tag|exact (fits_field _ _ F1)]|apply emits_app; [apply emits_int32; tag|apply emits_int32; tag]]).
    change (10 / 8) with 1. change (16 / 8) with 2. change (24 / 8) with 3. cbn [app merge_fields cuckoo_params_step default_cuckoo_params cp_hash cp_functions cp_buckets].
    rewrite (sub_round hash_family_config parse_hash_config 0 default_hash_config h) by (intros d2; apply hash_config_round; [exact O1|exact (fits_field _ _ F1)]).
    destruct (Nat.leb 1 d1); [|reflexivity]. cbn [option_map]. rewrite merge_app.
    rewrite (merge_int32 _ (cuckoo_params_step d1) 2 f _ {| cp_hash := h; cp_functions := f; cp_buckets := 0 |} O2);
      [|intros ->; reflexivity|intros x Hx; cbn [cuckoo_params_step cp_hash cp_functions cp_buckets]; rewrite Hx; reflexivity].
    cbn [option_bind]. apply merge_int64; [exact O3|intros ->; reflexivity|]. intros x Hx. cbn [cuckoo_params_step cp_hash cp_functions cp_buckets]. rewrite Hx. reflexivity.
  - destruct p as [h b]. cbn [sp_hash sp_buckets] in *. destruct HO as (O1 & O3).
    change (18 / 8) with 2. cbn [public_params_step].
    rewrite (sub_round simple_params (parse_into simple_params_step) 1 default_simple_params {| sp_hash := h; sp_buckets := b |}); [destruct (Nat.leb 2 d); reflexivity|].
    intros d1. erewrite parse_emits by (apply emits_app; [apply emits_len; [tag|exact (fits_field _ _ F1)]|apply emits_int32; tag]).
    change (10 / 8) with 1. change (16 / 8) with 2. cbn [app merge_fields simple_params_step default_simple_params sp_hash sp_buckets].
    rewrite (sub_round hash_family_config parse_hash_config 0 default_hash_config h) by (intros d2; apply hash_config_round; [exact O1|exact (fits_field _ _ F1)]).
    destruct (Nat.leb 1 d1); [|reflexivity]. cbn [option_map].
    apply merge_int64; [exact O3|intros ->; reflexivity|]. intros x Hx. cbn [simple_params_step sp_hash sp_buckets]. rewrite Hx. reflexivity.
Qed.
Lemma dcf_round : forall k, dkey_ok k -> fits (write_dcf_key k) -> forall d,
  parse_dcf_into d default_key (write_dcf_key k) = if Nat.leb (S (key_depth k)) d then Some k else None.
Proof.
  intros k HO HF d. unfold parse_dcf_into, write_dcf_key in *. apply fits_field in HF. rewrite parse_one; [|tag|exact HF]. change (10 / 8) with 1. cbv beta iota.
  apply sub_round. apply key_round; assumption.
Qed.
Lemma mic_key_round : forall k, mic_key_ok k -> fits (write_mic_key k) -> forall d,
  parse_mic_key d (write_mic_key k) = if Nat.leb (mic_key_depth k) d then Some k else None.
Proof.
  intros [k l] [H1 H2] HF d. unfold parse_mic_key, write_mic_key, mic_key_depth in *. cbn [mk_dcf mk_shares] in *. apply fits_app in HF. destruct HF as [F1 F2]. apply fits_flat in F2.
  erewrite parse_emits by (apply emits_app; [apply emits_len; [tag|exact (fits_field _ _ F1)]|apply emits_repeated; [tag|exact F2]]).
  change (10 / 8) with 1. change (18 / 8) with 2. rewrite leb_max. cbn [app merge_fields mic_key_step mk_dcf mk_shares].
  rewrite (sub_round dkey parse_dcf_into (S (key_depth k)) default_key k) by (apply dcf_round; [exact H1|exact (fits_field _ _ F1)]).
  change (2 + key_depth k)%nat with (S (S (key_depth k))). destruct (Nat.leb (S (S (key_depth k))) d); [|reflexivity]. cbn [option_map andb].
  rewrite (merge_repeated mic_key vinteger _ _ vinteger_depth (fun m l => {| mk_dcf := mk_dcf m; mk_shares := mk_shares m ++ l |}) d).
  - cbn [mk_dcf mk_shares app]. reflexivity.
  - intros [? ?]. cbn. rewrite app_nil_r. reflexivity.
  - intros [? ?] x t. cbn. rewrite <- app_assoc. reflexivity.
  - intros x Hx m. cbn [mic_key_step]. rewrite (sub_round vinteger parse_vinteger (vinteger_depth x) VIUnset x).
    + destruct (Nat.leb (S (vinteger_depth x)) d); reflexivity.
    + intros d1. apply vinteger_round; [exact (proj1 (Forall_forall _ _) H2 x Hx)|exact (proj1 (Forall_forall _ _) F2 x Hx)].
Qed.

(** * Ranges of what was parsed *)
Ltac mapped H E := match type of H with option_map _ ?e = _ => destruct e eqn:E; [|discriminate] end; inversion H; subst; clear H.
Lemma default_plain_ok : plain_ok default_plain.
Proof. split; [constructor|reflexivity]. Qed.
Lemma leader_parsed : forall d b m m', is_bytes b -> (forall p, fst m = Some p -> plain_ok p) -> parse_leader d m b = Some m' -> forall p, fst m' = Some p -> plain_ok p.
Proof.
  intros d b m m' HB HM H. revert H. apply (parse_inv _ (fun m : option plain_request * option bytes => forall p, fst m = Some p -> plain_ok p)); [exact HB| |exact HM].
  intros v [n w] m1 HV HW H. cbn [snd] in HW. unfold leader_step in H. field_cases H n w; cbn [wire_ok] in HW; try (inversion H; subst; exact HV); mapped H E; cbn [fst].
  - exact HV.
  - intros q1 [= <-]. revert E. apply sub_parsed. intros d1 v1. apply plain_parsed; [exact HW|]. destruct (fst v) as [q2|]; [apply HV; reflexivity|exact default_plain_ok].
Qed.
Lemma dpf_request_parsed : forall d b m m', is_bytes b -> request_ok m -> parse_dpf_request d m b = Some m' -> request_ok m'.
Proof.
  intros d b m m' HB HM H. revert H. apply (parse_inv request request_ok); [exact HB| |exact HM].
  intros v [n w] m1 HV HW H. cbn [snd] in HW. unfold dpf_request_step in H. field_cases H n w; cbn [wire_ok] in HW; try (inversion H; subst; exact HV); mapped H E; cbn [request_ok].
  - exact I.
  - revert E. apply (sub_parsed _ _ (fun pe : option plain_request * option bytes => forall p, fst pe = Some p -> plain_ok p)).
    intros d1 v1. apply leader_parsed; [exact HW|]. destruct v; cbn [fst request_ok] in *; try discriminate. exact HV.
  - revert E. apply sub_parsed. intros d1 v1. apply plain_parsed; [exact HW|]. destruct v; try exact default_plain_ok. exact HV.
Qed.
Lemma request_parsed : forall limit b r, is_bytes b -> parse_request limit b = Some r -> request_ok r.
Proof.
  intros limit b r HB H. revert H. apply (parse_inv request request_ok); [exact HB| |exact I].
  intros v [n w] m1 HV HW H. cbn [snd] in HW. field_cases H n w; cbn [wire_ok] in HW; try (inversion H; subst; exact HV).
  revert H. apply sub_parsed. intros d1 v1. apply dpf_request_parsed; [exact HW|]. destruct v; try exact I; exact HV.
Qed.
Lemma int64_of_ok : forall x, int64_ok (int64_of x).
Proof. intros x. unfold int64_ok, int64_of. change (2 ^ 63)%Z with 9223372036854775808%Z. change (2 ^ 64)%Z with 18446744073709551616%Z. lia. Qed.
Lemma hash_config_parsed : forall d b m m', is_bytes b -> int32_ok (hf_family m) -> parse_hash_config d m b = Some m' -> int32_ok (hf_family m').
Proof.
  intros d b m m' HB HM H. revert H. apply (parse_inv _ (fun m => int32_ok (hf_family m))); [exact HB| |exact HM].
  intros v [n w] m1 HV HW H. cbn [snd] in HW. unfold hash_config_step in H. field_cases H n w; inversion H; subst; try exact HV. apply int32_of_ok.
Qed.
Lemma public_params_parsed : forall limit b p, is_bytes b -> parse_public_params limit b = Some p -> public_params_ok p.
Proof.
  assert (H32 : int32_ok 0) by (vm_compute; split; congruence). assert (H64 : int64_ok 0) by (vm_compute; split; congruence).
  intros limit b p HB H. revert H. apply (parse_inv public_params public_params_ok); [exact HB| |exact I].
  intros v [n w] m1 HV HW H. cbn [snd] in HW. unfold public_params_step in H. field_cases H n w; cbn [wire_ok] in HW; try (inversion H; subst; exact HV); mapped H E; cbn [public_params_ok].
  - revert E. apply (sub_parsed _ _ (fun p => int32_ok (hf_family (sp_hash p)) /\ int64_ok (sp_buckets p))). intros d1 v1.
    apply (parse_inv _ (fun p => int32_ok (hf_family (sp_hash p)) /\ int64_ok (sp_buckets p))); [exact HW| |destruct v; try (split; assumption); exact HV].
    intros q [n w] m1 [V1 V2] HW1 H. cbn [snd] in HW1. unfold simple_params_step in H. field_cases H n w; cbn [wire_ok] in HW1; try (inversion H; subst; split; assumption).
    + inversion H; subst. split; [exact V1|apply int64_of_ok].
    + mapped H E. cbn [sp_hash sp_buckets]. split; [|exact V2]. revert E. apply (sub_parsed _ _ (fun h => int32_ok (hf_family h))). intros d2 v2. apply hash_config_parsed; assumption.
  - revert E. apply (sub_parsed _ _ (fun p => int32_ok (hf_family (cp_hash p)) /\ int32_ok (cp_functions p) /\ int64_ok (cp_buckets p))). intros d1 v1.
    apply (parse_inv _ (fun p => int32_ok (hf_family (cp_hash p)) /\ int32_ok (cp_functions p) /\ int64_ok (cp_buckets p))); [exact HW| |destruct v; try (split; [exact H32|split; [exact H32|exact H64]]); exact HV].
    intros q [n w] m1 (V1 & V2 & V3) HW1 H. cbn [snd] in HW1. unfold cuckoo_params_step in H. field_cases H n w; cbn [wire_ok] in HW1; try (inversion H; subst; split; [|split]; assumption).
    + inversion H; subst. split; [exact V1|]. split; [exact V2|apply int64_of_ok].
    + inversion H; subst. split; [exact V1|]. split; [apply int32_of_ok|exact V3].
    + mapped H E. cbn [cp_hash cp_functions cp_buckets]. split; [|auto]. revert E. apply (sub_parsed _ _ (fun h => int32_ok (hf_family h))). intros d2 v2. apply hash_config_parsed; assumption.
Qed.
Lemma dcf_parsed : forall d b m m', is_bytes b -> dkey_ok m -> parse_dcf_into d m b = Some m' -> dkey_ok m'.
Proof.
  intros d b m m' HB HM H. revert H. apply (parse_inv dkey dkey_ok); [exact HB| |exact HM].
  intros v [n w] m1 HV HW H. cbn [snd] in HW. field_cases H n w; cbn [wire_ok] in HW; try (inversion H; subst; exact HV).
  revert H. apply sub_parsed. intros d1 v1. apply key_parsed; assumption.
Qed.
Lemma mic_key_parsed : forall limit b k, is_bytes b -> parse_mic_key limit b = Some k -> mic_key_ok k.
Proof.
  intros limit b k HB H. revert H. apply (parse_inv mic_key mic_key_ok); [exact HB| |split; [exact default_key_ok|constructor]].
  intros v [n w] m1 [V1 V2] HW H. cbn [snd] in HW. unfold mic_key_step in H. field_cases H n w; cbn [wire_ok] in HW; try (inversion H; subst; split; assumption); mapped H E; split; cbn [mk_dcf mk_shares]; try assumption.
  - apply Forall_app. split; [exact V2|]. constructor; [|constructor]. revert E. apply sub_parsed. intros d1 v1. apply vinteger_parsed'; [exact HW|exact I].
  - revert E. apply sub_parsed. intros d1 v1. apply dcf_parsed; assumption.
Qed.
