(** C73: what the Leader's request and the Helper's reply reveal to the Leader. *)
From Coq Require Import List NArith ZArith Lia Bool ZifyBool ZifyNat ZifyN.
From Verif Require Import Base ListUtil ValueTypesModel ValueTypesSpec DpfModel DpfSpec DpfExamples DpfPrivacySpec DpfPrivacy DpfHide DpfBiject
  PirDbModel PirSpec PirDbProofs PirIpProofs PirModel PirProtoSpec PirProtoProofs PirDenseProofs PropertiesPirProto PirPrivacy HashModel SparseModel SparseSpec
  SparseDbProofs SparseProofs PropertiesSparse PropertiesPrivacy PropertiesPirSafety PropertiesIpExact PropertiesPir PropertiesPirOutcomes PropertiesPirEnd PropertiesPirPrivacy
  DpfExt PirMask.
Import ListNotations.
Ltac Zify.zify_post_hook ::= Z.div_mod_to_equations.
Open Scope N_scope.

(** ** Specification *)

(** Two outcomes of HandlePlainRequest that differ at most in the bytes of the replies. *)
Definition alike (r1 r2 : res response) : Prop :=
  match r1, r2 with
  | Ok (Some l1), Ok (Some l2) => same_shape l1 l2 /\ Forall is_bytes l1 /\ Forall is_bytes l2
  | Ok (Some _), _ | _, Ok (Some _) => False
  | _, _ => r1 = r2
  end.
(** The sizes of a reply, all together. *)
Definition reply_size (r : res response) : nat := match r with Ok (Some l) => total_length l | _ => 0 end.

(** ** The Helper *)
Lemma keystream_key : forall aes aes' seed nonce, (forall x, aes' (le_decode seed) x = aes (le_decode seed) x) ->
  forall i, keystream aes' seed nonce i = keystream aes seed nonce i.
Proof. intros aes aes' seed nonce H i. unfold keystream. rewrite H. reflexivity. Qed.
Lemma pads_key : forall aes aes' seed, (forall x, aes' (le_decode seed) x = aes (le_decode seed) x) ->
  forall ls pos, pads aes' seed pos ls = pads aes seed pos ls.
Proof.
  intros aes aes' seed H. induction ls as [|n ls IH]; intros pos; cbn [pads]; [reflexivity|]. rewrite IH. f_equal.
  apply map_ext. apply keystream_key. exact H.
Qed.
Lemma helper_reply : forall aes parse decrypt context e m h hp, decrypt e context = Ok m -> parse m = Some h ->
  handle_request aes parse hp (Helper decrypt context) (RqHelper e) =
  (r <- hp (RqPlain (inner_plain h)) ;;
   if Nat.eqb (length (hq_seed h)) 16
   then Ok (match r with None => None | Some l => Some (xor_lists l (pads aes (hq_seed h) 0 (map (@length N) l))) end)
   else Err INVALID_ARGUMENT).
Proof.
  intros aes parse decrypt context e m h hp HD HP. cbn [handle_request]. unfold handle_helper_request. rewrite HD. cbn [bind]. rewrite HP. cbn [bind].
  fold (inner_plain h). destruct (hp (RqPlain (inner_plain h))) as [r| | |]; cbn [bind]; try reflexivity.
  destruct (Nat.eqb_spec (length (hq_seed h)) 16) as [E|E].
  - destruct r as [l|].
    + pose proof (mask_created aes (hq_seed h) l E) as HM. destruct (prng_create (hq_seed h)); cbn [bind] in *; try discriminate. rewrite HM. reflexivity.
    + rewrite prng_create_iff, E. reflexivity.
  - rewrite prng_create_iff. destruct (Nat.eqb_spec (length (hq_seed h)) 16); [contradiction|]. reflexivity.
Qed.

Lemma pad_uses_mono : forall seed a b, (a <= b)%nat -> incl (pad_uses seed a) (pad_uses seed b).
Proof.
  intros seed a b H q Hq. unfold pad_uses in *. apply in_map_iff in Hq. destruct Hq as (j & <- & Hj). apply in_map_iff. exists j. split; [reflexivity|].
  apply in_seq in Hj. apply in_seq. lia.
Qed.
Lemma agree_incl : forall u v aes aes', incl u v -> agree_off u aes aes' -> agree_off v aes aes'.
Proof. intros u v aes aes' HI HA k x Hn. apply HA. intros H. apply Hn, HI, H. Qed.

(** The change of the cipher that turns one reply into the other. *)
Definition reply_difference (r1 r2 : res response) : bytes :=
  match r1, r2 with Ok (Some l1), Ok (Some l2) => difference l1 l2 | _, _ => [] end.
Lemma reply_difference_length : forall r1 r2, alike r1 r2 -> length (reply_difference r1 r2) = reply_size r1.
Proof.
  intros [[l1|]| | |] [[l2|]| | |] H; cbn [alike reply_difference reply_size] in *; try contradiction; try reflexivity.
  apply difference_length, H.
Qed.
Lemma helper_alike : forall aes aes1 parse decrypt context e m h hp hp1, decrypt e context = Ok m -> parse m = Some h ->
  let r := hp (RqPlain (inner_plain h)) in let r1 := hp1 (RqPlain (inner_plain h)) in
  alike r r1 -> N.of_nat (reply_size r) <= 2 ^ 132 ->
  (forall x, aes1 (le_decode (hq_seed h)) x = aes (le_decode (hq_seed h)) x) ->
  handle_request (remask (hq_seed h) (reply_difference r r1) aes1) parse hp1 (Helper decrypt context) (RqHelper e) =
  handle_request aes parse hp (Helper decrypt context) (RqHelper e).
Proof.
  intros aes aes1 parse decrypt context e m h hp hp1 HD HP r r1 HA HT HK.
  rewrite (helper_reply _ parse decrypt context e m h hp1 HD HP), (helper_reply aes parse decrypt context e m h hp HD HP). fold r r1.
  destruct r as [[l1|]| | |], r1 as [[l2|]| | |]; cbn [alike reply_difference reply_size bind] in *; try contradiction; try congruence.
  destruct (Nat.eqb _ _); [|reflexivity]. do 2 f_equal. rewrite masks_alike by (apply HA || assumption). f_equal. apply pads_key. exact HK.
Qed.

(** The Helper's reply does not determine the plain reply: whatever other reply of the same sizes the derived class
    computes, under a cipher that differs only at the blocks of the pad the masked reply is the same.  No program
    that is given the request and the reply notices, unless it asks for one of those blocks. *)
Theorem C73_helper : forall aes parse decrypt context e m h hp hp', decrypt e context = Ok m -> parse m = Some h ->
  alike (hp (RqPlain (inner_plain h))) (hp' (RqPlain (inner_plain h))) -> N.of_nat (reply_size (hp (RqPlain (inner_plain h)))) <= 2 ^ 132 ->
  let uses := pad_uses (hq_seed h) (reply_size (hp (RqPlain (inner_plain h)))) in
  let reply := handle_request aes parse hp (Helper decrypt context) (RqHelper e) in
  exists aes', handle_request aes' parse hp' (Helper decrypt context) (RqHelper e) = reply /\
    agree_off uses aes aes' /\ (on_blocks aes -> on_blocks aes') /\
    forall adversary : bytes * res response -> oracle_program, disjoint (asked aes (adversary (e, reply))) uses ->
      run_program aes' (adversary (e, reply)) = run_program aes (adversary (e, reply)) /\
      asked aes' (adversary (e, reply)) = asked aes (adversary (e, reply)).
Proof.
  intros aes parse decrypt context e m h hp hp' HD HP HA HT uses reply.
  set (D := reply_difference (hp (RqPlain (inner_plain h))) (hp' (RqPlain (inner_plain h)))).
  assert (HL : length D = reply_size (hp (RqPlain (inner_plain h)))) by (apply reply_difference_length, HA).
  exists (remask (hq_seed h) D aes). pose proof (remask_agree (hq_seed h) D aes) as HO. rewrite HL in HO. fold uses in HO.
  split; [apply (helper_alike aes aes parse decrypt context e m h hp hp' HD HP HA HT); reflexivity|].
  split; [exact HO|]. split; [apply remask_blocks|]. intros adversary HQ. apply (program_agree uses); auto.
Qed.
Print Assumptions C73_helper.

(** ** Plain replies to the keys of clients *)

Lemma answer_length : forall records e, length (answer records e) = longest records.
Proof. intros. unfold answer, wrapped_xor. rewrite map_length, seq_length. reflexivity. Qed.
Lemma xor_all_byte : forall l, Forall (fun x => x < 256) l -> xor_all l < 256.
Proof.
  intros l H. induction H as [|x l Hx _ IH]; [reflexivity|]. rewrite xor_all_cons. change 256 with (2 ^ 8) in *. apply lxor_bound; assumption.
Qed.
Lemma answer_bytes : forall records e, byte_records records -> is_bytes (answer records e).
Proof.
  intros records e HB. unfold answer, wrapped_xor. apply Forall_forall. intros x Hx. apply in_map_iff in Hx. destruct Hx as (p & <- & _).
  apply xor_all_byte. apply Forall_forall. intros y Hy. apply in_map_iff in Hy. destruct Hy as (i & <- & Hi). apply in_seq in Hi.
  destruct (wrapped_selected e i); [|reflexivity].
  assert (Hr : is_bytes (nth i records [])).
  { unfold byte_records in HB. rewrite Forall_forall in HB. apply HB. apply nth_In. lia. }
  destruct (nth_in_or_default p (nth i records []) 0) as [H|H]; [|rewrite H; reflexivity].
  unfold is_bytes in Hr. rewrite Forall_forall in Hr. apply Hr. exact H.
Qed.
Lemma list_sum_repeat : forall A (f : A -> nat) k l, (forall x, f x = k) -> list_sum (map f l) = (length l * k)%nat.
Proof. intros A f k l H. induction l as [|x l IH]; [reflexivity|]. cbn [map length Nat.mul]. change (list_sum (f x :: map f l)) with (f x + list_sum (map f l))%nat. rewrite H, IH. reflexivity. Qed.
Lemma answers_total : forall records es, total_length (map (answer records) es) = (length es * longest records)%nat.
Proof. intros. unfold total_length. rewrite map_map. apply list_sum_repeat. intros e. apply answer_length. Qed.
Lemma longest_lt : forall records, byte_records records -> (Z.of_nat (longest records) < 2147483648)%Z.
Proof.
  intros records HB. induction HB as [|r l [_ H] _ IH]; [reflexivity|]. change (longest (r :: l)) with (Nat.max (length r) (longest l)). lia.
Qed.

(** The outcome of the inner product, except for the bytes, does not depend on the selections. *)
Lemma product_uniform : forall clog n t d records, (0 < n < 2147483648)%Z -> clog_ok clog n -> target_ok t ->
  holds d records -> byte_records records -> (Z.of_nat (length records) <= n)%Z ->
  let good := fun E => E <> [] /\ Forall (fun e => length e = nblocks clog n) E in
  (forall E, good E -> inner_product_with t d E = Ok (map (answer records) E)) \/
  (forall E, good E -> inner_product_with t d E = Err INVALID_ARGUMENT) \/
  (forall E, good E -> inner_product_with t d E = UB).
Proof.
  intros clog n t d records Hn HL HT HH HB Hlen good.
  assert (HP := fun E H => product_exact clog n t d records E Hn HL HT HH HB Hlen (proj1 H) (proj2 H)). clear HT HH.
  destruct (Nat.eq_dec (longest records) 0) as [E0|E0].
  { apply all_empty_longest in E0. right. left. intros E HE. specialize (HP E HE). destruct (inner_product_with t d E); [tauto| |tauto|tauto].
    destruct HP as [-> _]. reflexivity. }
  assert (HNE : ~ all_empty records) by (rewrite <- all_empty_longest; exact E0).
  destruct (Z.le_gt_cases 31 (clog n)) as [Hbig|Hsmall].
  { right. left. intros E HE. specialize (HP E HE). destruct (inner_product_with t d E); [lia| |tauto|unfold overflows in HP; lia].
    destruct HP as [-> _]. reflexivity. }
  destruct (overflows_dec clog n t) as [HO|HO].
  - right. right. intros E HE. specialize (HP E HE). destruct (inner_product_with t d E); [tauto| |tauto|reflexivity]. destruct HP as [_ [HP|HP]]; [tauto|lia].
  - left. intros E HE. specialize (HP E HE). destruct (inner_product_with t d E); [destruct HP as [-> _]; reflexivity| |tauto|tauto].
    destruct HP as [_ [HP|HP]]; [tauto|lia].
Qed.

(** Keys made by a client are expanded. *)
Lemma honest_expands : forall aes F clog n c idx seeds pad l h st, (0 < n < 2147483648)%Z -> clog_ok clog n ->
  dense_client_create F clog (CfgDense n) true = Ok c ->
  dense_create_plain_requests aes c idx seeds pad = Ok (l, h, st) ->
  create_incremental F (dense_params clog n) = Ok (dc_dpf c) /\ Forall (fun q => 0 <= q < n)%Z idx /\ hq_seed h = pad /\
  length (pq_keys (inner_plain h)) = length idx /\
  exists E, mapM (dense_expand aes (dc_dpf c)) (pq_keys (inner_plain h)) = Ok E /\ length E = length idx /\
            Forall (fun e => length e = nblocks clog n) E.
Proof.
  intros aes F clog n c idx seeds pad l h st Hn HL Hc H. destruct (client_created F clog n c Hn Hc) as [Hd Ec].
  destruct (C50_shape aes F clog n c idx seeds pad l h st Hn HL Hc H) as (_ & _ & _ & HS & _ & HK).
  rewrite Ec in H. pose proof (requests_valid n (dc_dpf c) aes idx seeds pad _ H) as HV.
  split; [exact Hd|]. split; [exact HV|]. split; [exact HS|]. unfold inner_plain. destruct (hq_plain h) as [q|] eqn:Eh.
  - destruct HK as (Hne & HK & _). split; [exact HK|].
    destruct (request_part aes F clog n idx seeds pad Hn HL Hne HV) as (d & keys & E0 & E1 & D1 & D2 & D3 & D4 & D5 & D6 & N0 & N1 & L0 & L1).
    rewrite Hd in D1. injection D1 as <-. rewrite H in D3. injection D3 as -> -> _. cbn [hq_plain] in Eh. injection Eh as <-. cbn [pq_keys] in *.
    exists E1. split; [exact D6|]. split; [|exact L1]. rewrite <- HK. symmetry. apply mapM_length in D6. congruence.
  - subst idx. split; [reflexivity|]. exists []. repeat split. constructor.
Qed.

Lemma replies_alike : forall records E E', byte_records records -> length E = length E' ->
  same_shape (map (answer records) E) (map (answer records) E') /\ Forall is_bytes (map (answer records) E) /\ Forall is_bytes (map (answer records) E').
Proof.
  intros records E E' HB HL. split; [|split; apply Forall_forall; intros x Hx; apply in_map_iff in Hx; destruct Hx as (e & <- & _); apply answer_bytes, HB].
  unfold same_shape. rewrite !map_map. revert E' HL. induction E as [|e E IH]; intros [|e' E'] HL; try discriminate; [reflexivity|].
  cbn [map]. rewrite !answer_length. f_equal. apply IH. cbn [length] in HL. lia.
Qed.

(** The plain replies of a dense server to the keys of a client, for different queries and ciphers. *)
Lemma dense_alike : forall aes aes' d keys E E' clog n t s records, (0 < n < 2147483648)%Z -> clog_ok clog n -> target_ok t ->
  holds (ds_db s) records -> byte_records records -> (Z.of_nat (length records) <= n)%Z -> ds_dpf s = d ->
  mapM (dense_expand aes d) (pq_keys keys) = Ok E -> mapM (dense_expand aes' d) (pq_keys keys) = Ok E' ->
  length E = length (pq_keys keys) -> length E' = length (pq_keys keys) ->
  Forall (fun e => length e = nblocks clog n) E -> Forall (fun e => length e = nblocks clog n) E' ->
  let r := dense_handle_plain aes t s (RqPlain keys) in
  alike r (dense_handle_plain aes' t s (RqPlain keys)) /\ (reply_size r <= length (pq_keys keys) * longest records)%nat.
Proof.
  intros aes aes' d keys E E' clog n t s records Hn HL HT HH HB Hlen <- HE HE' L L' N N' r. unfold r, dense_handle_plain.
  destruct (Nat.eqb_spec (length (pq_keys keys)) 0) as [E0|E0]; cbn [negb check bind]; [split; [reflexivity|cbn [reply_size]; lia]|].
  rewrite HE, HE'. cbn [bind].
  assert (G : E <> [] /\ Forall (fun e => length e = nblocks clog n) E) by (split; [intros ->; cbn [length] in L; lia|exact N]).
  assert (G' : E' <> [] /\ Forall (fun e => length e = nblocks clog n) E') by (split; [intros ->; cbn [length] in L'; lia|exact N']).
  destruct (product_uniform clog n t (ds_db s) records Hn HL HT HH HB Hlen) as [HP|[HP|HP]]; rewrite (HP _ G), (HP _ G'); cbn [bind].
  - destruct (replies_alike records E E' HB ltac:(lia)) as (S1 & S2 & S3). pose proof (answers_total records E) as HT'.
    destruct E as [|e E]; [destruct G; congruence|]. destruct E' as [|e' E']; [destruct G'; congruence|].
    change (map (answer records) (e :: E)) with (answer records e :: map (answer records) E) in *.
    change (map (answer records) (e' :: E')) with (answer records e' :: map (answer records) E') in *. cbn [alike reply_size]. split; [auto|]. rewrite HT', <- L. lia.
  - split; [reflexivity|cbn [reply_size]; lia].
  - split; [reflexivity|cbn [reply_size]; lia].
Qed.

Lemma simple_alike : forall aes aes' d keys E E' clog n t s records, (0 < n < 2147483648)%Z -> clog_ok clog n -> target_ok t ->
  holds (sd_dense (ss_db s)) records -> byte_records records -> (Z.of_nat (length records) <= n)%Z -> ss_dpf s = d ->
  mapM (dense_expand aes d) (pq_keys keys) = Ok E -> mapM (dense_expand aes' d) (pq_keys keys) = Ok E' ->
  length E = length (pq_keys keys) -> length E' = length (pq_keys keys) ->
  Forall (fun e => length e = nblocks clog n) E -> Forall (fun e => length e = nblocks clog n) E' ->
  let r := simple_handle_plain aes t s (RqPlain keys) in
  alike r (simple_handle_plain aes' t s (RqPlain keys)) /\ (reply_size r <= length (pq_keys keys) * longest records)%nat.
Proof.
  intros aes aes' d keys E E' clog n t s records Hn HL HT HH HB Hlen <- HE HE' L L' N N' r. unfold r, simple_handle_plain, sparse_selections.
  destruct (Nat.eqb_spec (length (pq_keys keys)) 0) as [E0|E0]; cbn [negb check bind]; [split; [reflexivity|cbn [reply_size]; lia]|].
  destruct (check _ INVALID_ARGUMENT) eqn:EC; cbn [bind]; try (split; [reflexivity|cbn [reply_size]; lia]).
  rewrite HE, HE'. cbn [bind].
  assert (G : E <> [] /\ Forall (fun e => length e = nblocks clog n) E) by (split; [intros ->; cbn [length] in L; lia|exact N]).
  assert (G' : E' <> [] /\ Forall (fun e => length e = nblocks clog n) E') by (split; [intros ->; cbn [length] in L'; lia|exact N']).
  destruct (product_uniform clog n t (sd_dense (ss_db s)) records Hn HL HT HH HB Hlen) as [HP|[HP|HP]]; rewrite (HP _ G), (HP _ G'); cbn [bind alike reply_size].
  - split; [apply replies_alike; [exact HB|lia]|]. rewrite answers_total, L. lia.
  - split; [reflexivity|lia].
  - split; [reflexivity|lia].
Qed.

Definition pair_answers (K V : list bytes) (E : list (list N)) : list bytes := flat_map (fun e => [answer K e; answer V e]) E.
Lemma pair_answers_eq : forall K V E,
  flat_map (fun kv : bytes * bytes => [fst kv; snd kv]) (combine (map (answer K) E) (map (answer V) E)) = pair_answers K V E.
Proof. intros K V. unfold pair_answers. induction E as [|e E IH]; [reflexivity|]. cbn [map combine flat_map fst snd app]. rewrite IH. reflexivity. Qed.
Lemma pair_answers_total : forall K V E, total_length (pair_answers K V E) = (length E * (longest K + longest V))%nat.
Proof.
  intros K V. unfold total_length, pair_answers. induction E as [|e E IH]; [reflexivity|]. cbn [flat_map app map length Nat.mul].
  rewrite !answer_length.
  unfold list_sum in *. cbn [fold_right]. rewrite IH. lia.
Qed.
Lemma pairs_alike : forall K V E E', byte_records K -> byte_records V -> length E = length E' ->
  same_shape (pair_answers K V E) (pair_answers K V E') /\ Forall is_bytes (pair_answers K V E) /\ Forall is_bytes (pair_answers K V E').
Proof.
  intros K V E E' HK HV HL. unfold pair_answers.
  assert (HF : forall E, Forall is_bytes (flat_map (fun e => [answer K e; answer V e]) E)).
  { intros E0. apply Forall_forall. intros x Hx. apply in_flat_map in Hx. destruct Hx as (e & _ & [<-|[<-|[]]]); apply answer_bytes; assumption. }
  split; [|auto]. unfold same_shape. revert E' HL. induction E as [|e E IH]; intros [|e' E'] HL; try discriminate; [reflexivity|].
  cbn [flat_map app map]. rewrite !answer_length. do 2 f_equal. apply IH. cbn [length] in HL. lia.
Qed.
Lemma cuckoo_alike : forall aes aes' d keys E E' clog n t s K V, (0 < n < 2147483648)%Z -> clog_ok clog n -> target_ok t ->
  holds (cd_keys (cs_db s)) K -> holds (cd_values (cs_db s)) V -> byte_records K -> byte_records V ->
  (Z.of_nat (length K) <= n)%Z -> (Z.of_nat (length V) <= n)%Z -> cs_dpf s = d ->
  mapM (dense_expand aes d) (pq_keys keys) = Ok E -> mapM (dense_expand aes' d) (pq_keys keys) = Ok E' ->
  length E = length (pq_keys keys) -> length E' = length (pq_keys keys) ->
  Forall (fun e => length e = nblocks clog n) E -> Forall (fun e => length e = nblocks clog n) E' ->
  let r := cuckoo_handle_plain aes t s (RqPlain keys) in
  alike r (cuckoo_handle_plain aes' t s (RqPlain keys)) /\ (reply_size r <= length (pq_keys keys) * (longest K + longest V))%nat.
Proof.
  intros aes aes' d keys E E' clog n t s K V Hn HL HT HHK HHV HBK HBV HlK HlV <- HE HE' L L' N N' r. unfold r, cuckoo_handle_plain, sparse_selections.
  destruct (Nat.eqb_spec (length (pq_keys keys)) 0) as [E0|E0]; cbn [negb check bind]; [split; [reflexivity|cbn [reply_size]; lia]|].
  destruct (check (negb (negb _ && _)) INVALID_ARGUMENT) eqn:EC; cbn [bind]; try (split; [reflexivity|cbn [reply_size]; lia]).
  rewrite HE, HE'. cbn [bind]. unfold cuckoo_inner_product.
  assert (G : E <> [] /\ Forall (fun e => length e = nblocks clog n) E) by (split; [intros ->; cbn [length] in L; lia|exact N]).
  assert (G' : E' <> [] /\ Forall (fun e => length e = nblocks clog n) E') by (split; [intros ->; cbn [length] in L'; lia|exact N']).
  destruct (product_uniform clog n t (cd_keys (cs_db s)) K Hn HL HT HHK HBK HlK) as [HP|[HP|HP]]; rewrite (HP _ G), (HP _ G'); cbn [bind];
    try (split; [reflexivity|cbn [reply_size]; lia]).
  destruct (product_uniform clog n t (cd_values (cs_db s)) V Hn HL HT HHV HBV HlV) as [HQ|[HQ|HQ]]; rewrite (HQ _ G), (HQ _ G'); cbn [bind];
    try (split; [reflexivity|cbn [reply_size]; lia]).
  rewrite !map_length, !Nat.eqb_refl. cbn [andb check bind alike reply_size]. rewrite !pair_answers_eq.
  split; [apply pairs_alike; try assumption; lia|]. rewrite pair_answers_total, L. lia.
Qed.

(** ** The Leader's view *)

Lemma uses_fixed_keys : forall aes ps d f l k x, In (k, x) (others_uses aes ps d f l) -> In k [kPrgKeyLeft; kPrgKeyRight; kPrgKeyValue].
Proof.
  intros aes ps d f l k x H. unfold others_uses in H. apply in_flat_map in H. destruct H as (j & _ & H).
  unfold path_uses, seed_uses in H. apply in_app_or in H. destruct H as [H|H]; apply in_flat_map in H; destruct H as (i & _ & H).
  - destruct H as [E|[E|[]]]; injection E as <- _; [left|right; left]; reflexivity.
  - apply in_map_iff in H. destruct H as (m & E & _). injection E as <- _. right. right. left. reflexivity.
Qed.
Lemma channel_decrypts : forall ch h e, channel_ok ch -> ch_enc ch (ch_ser ch h) (ch_context ch) = Ok e ->
  ch_dec ch e (ch_context ch) = Ok (ch_ser ch h) /\ ch_par ch (ch_ser ch h) = Some h.
Proof.
  intros ch h e [H1 H2] HE. destruct (H2 (ch_ser ch h)) as (e' & E1 & E2). rewrite HE in E1. injection E1 as <-. auto.
Qed.
(** The reply of the Helper with these functions for the derived class to the encrypted request. *)
Definition helper_reply_to (aes : N -> N -> N) (ch : channel) (hp : request -> res response) (e : bytes) : res response :=
  handle_request aes (ch_par ch) hp (Helper (ch_dec ch) (ch_context ch)) (RqHelper e).

Lemma view_step : forall ch aes aes1 hp h e us total (requests : (N -> N -> N) -> Prop),
  channel_ok ch -> ch_enc ch (ch_ser ch h) (ch_context ch) = Ok e ->
  (forall k x, In (k, x) us -> In k [kPrgKeyLeft; kPrgKeyRight; kPrgKeyValue]) -> fresh_pad (hq_seed h) ->
  agree_off us aes aes1 -> requests aes1 ->
  (forall g g', same_prg g g' -> requests g -> requests g') ->
  (forall g g', same_prg g g' -> forall req, hp g req = hp g' req) ->
  alike (hp aes (RqPlain (inner_plain h))) (hp aes1 (RqPlain (inner_plain h))) ->
  (reply_size (hp aes (RqPlain (inner_plain h))) <= total)%nat -> N.of_nat total <= 2 ^ 132 ->
  exists aes2, requests aes2 /\ helper_reply_to aes2 ch (hp aes2) e = helper_reply_to aes ch (hp aes) e /\
    agree_off (us ++ pad_uses (hq_seed h) total) aes aes2 /\ (on_blocks aes1 -> on_blocks aes2).
Proof.
  intros ch aes aes1 hp h e us total requests HC HE HU HF HA HR HS HH HL HT Htot.
  destruct (channel_decrypts ch h e HC HE) as [HD HP].
  set (D := reply_difference (hp aes (RqPlain (inner_plain h))) (hp aes1 (RqPlain (inner_plain h)))).
  assert (HLen : length D = reply_size (hp aes (RqPlain (inner_plain h)))) by (apply reply_difference_length, HL).
  exists (remask (hq_seed h) D aes1). pose proof (remask_prg (hq_seed h) D aes1 HF) as HG.
  split; [apply (HS aes1); assumption|]. split; [|split; [|apply remask_blocks]].
  - unfold helper_reply_to.
    assert (EQ : forall hp1 hp2, (forall req, hp1 req = hp2 req) -> forall a,
      handle_request a (ch_par ch) hp1 (Helper (ch_dec ch) (ch_context ch)) (RqHelper e) = handle_request a (ch_par ch) hp2 (Helper (ch_dec ch) (ch_context ch)) (RqHelper e)).
    { intros hp1 hp2 H12 a. rewrite !(helper_reply a (ch_par ch) (ch_dec ch) (ch_context ch) e _ h _ HD HP), H12. reflexivity. }
    rewrite (EQ _ (hp aes1) (fun req => eq_sym (HH _ _ HG req))).
    apply (helper_alike aes aes1 (ch_par ch) (ch_dec ch) (ch_context ch) e _ h (hp aes) (hp aes1) HD HP HL); [lia|].
    intros x. apply HA. intros Hin. apply HF. exact (HU _ _ Hin).
  - intros k x Hn. rewrite (remask_agree (hq_seed h) D aes1).
    + apply HA. intros Hin. apply Hn. apply in_or_app. left. exact Hin.
    + intros Hin. apply Hn. apply in_or_app. right. apply (pad_uses_mono _ (length D)); [lia|exact Hin].
Qed.

Lemma total_bound : forall q m, N.of_nat q < 2 ^ 64 -> (Z.of_nat m < 2147483648 * 2)%Z -> N.of_nat (q * m) <= 2 ^ 132.
Proof.
  intros q m Hq Hm. rewrite Nat2N.inj_mul. change (2 ^ 132) with (2 ^ 64 * 2 ^ 68). apply N.mul_le_mono; [lia|].
  apply N.le_trans with 4294967296; [lia|discriminate].
Qed.

(** Dense PIR: the Leader receives its plain request, the encrypted request for the Helper and the Helper's reply.
    For any other valid queries of the same number the same randomness gives all of these, under a block cipher that
    differs only at the blocks of the Helper's keys along the paths of the queries, and at those of the pad. *)
Theorem C73_dense : forall F clog n c t records db s ch, (0 < n < 2147483648)%Z -> clog_ok clog n -> target_ok t ->
  dense_client_create F clog (CfgDense n) true = Ok c ->
  byte_records records -> holds db records -> dense_create_plain F clog (CfgDense n) (Some db) = Ok s -> channel_ok ch ->
  forall aes qs qs' seeds pad l h st e,
  dense_create_plain_requests aes c qs seeds pad = Ok (l, h, st) -> ch_enc ch (ch_ser ch h) (ch_context ch) = Ok e ->
  length qs' = length qs -> Forall (fun q => 0 <= q < n)%Z qs' -> N.of_nat (length qs) < 2 ^ 64 -> fresh_pad pad ->
  all_apart aes (dense_params clog n) (client_dpf c) false (query_pairs l h qs qs') ->
  let uses := others_uses aes (dense_params clog n) (client_dpf c) false (query_pairs l h qs qs') ++ pad_uses pad (length qs * longest records) in
  let reply := fun g => helper_reply_to g ch (dense_handle_plain g t s) e in
  exists aes2, dense_create_plain_requests aes2 c qs' seeds pad = Ok (l, h, st) /\ reply aes2 = reply aes /\
    agree_off uses aes aes2 /\
    (on_blocks aes -> (forall i, fst (seeds i) < 2 ^ 128 /\ snd (seeds i) < 2 ^ 128) -> on_blocks aes2) /\
    forall adversary : request * res response -> oracle_program,
      let view := (RqLeader (Some l) (Some e), reply aes) in
      disjoint (asked aes (adversary view)) uses ->
      run_program aes2 (adversary view) = run_program aes (adversary view) /\
      asked aes2 (adversary view) = asked aes (adversary view).
Proof.
  intros F clog n c t records db s ch Hn HL HT Hc HB HH Hs HC aes qs qs' seeds pad l h st e H HE HLq HV Hsz HF HA uses reply.
  destruct (C50_dense_hides F clog n c Hn HL Hc false aes qs qs' seeds pad l h st H HLq HV HA) as (aes1 & H1 & H2 & H3 & _).
  destruct (honest_expands aes F clog n c qs seeds pad l h st Hn HL Hc H) as (Hd & _ & Hp & HK & E & X1 & X2 & X3).
  destruct (honest_expands aes1 F clog n c qs' seeds pad l h st Hn HL Hc H1) as (_ & _ & _ & _ & E' & Y1 & Y2 & Y3).
  unfold dense_create_plain in Hs. bind_inv Hs. injection Hb as <-. bind_inv Hs. bind_inv Hs. apply check_ok in Hb0. bind_inv Hs. injection Hs as Hs.
  rewrite Hd in Hb1. injection Hb1 as <-.
  assert (Hlen : (Z.of_nat (length records) <= n)%Z) by (destruct HH as (_ & HH & _); lia).
  destruct (dense_alike aes aes1 (dc_dpf c) (inner_plain h) E E' clog n t s records Hn HL HT) as [HAl HSz]; try assumption; try (subst s; reflexivity || assumption); try lia.
  rewrite HK in HSz.
  destruct (view_step ch aes aes1 (fun g => dense_handle_plain g t s) h e _ (length qs * longest records)
      (fun g => dense_create_plain_requests g c qs' seeds pad = Ok (l, h, st)) HC HE (uses_fixed_keys aes (dense_params clog n) (client_dpf c) false (query_pairs l h qs qs'))) as (aes2 & R1 & R2 & R3 & R4);
    try eassumption.
  - rewrite Hp. exact HF.
  - intros g g' Hg Hr. rewrite <- (dense_requests_same g g' Hg). exact Hr.
  - intros g g' Hg req. apply dense_handle_plain_same, Hg.
  - apply total_bound; [exact Hsz|]. pose proof (longest_lt records HB). lia.
  - rewrite Hp in R3. exists aes2. split; [exact R1|]. split; [exact R2|]. split; [exact R3|]. split; [intros B S; apply R4, H3; assumption|].
    intros adversary view HQ. apply (program_agree uses); assumption.
Qed.
Print Assumptions C73_dense.

Lemma fingerprint_plain : forall fp l0 h0 l h, add_fingerprint fp l0 h0 = (l, h) ->
  pq_keys (inner_plain h) = pq_keys (inner_plain h0) /\ hq_seed h = hq_seed h0.
Proof. intros fp l0 h0 l h H. unfold add_fingerprint in H. injection H as <- <-. unfold inner_plain. cbn [hq_plain hq_seed with_fingerprint pq_keys]. auto. Qed.

(** Cuckoo hashed and simple hashed PIR: any other strings of the same number. *)
Theorem C73_cuckoo : forall sha F clog p c t K V db s ch, (forall x, length (sha x) = 32%nat) -> (cp_buckets p < 2147483648)%Z ->
  clog_ok clog (cp_buckets p) -> target_ok t -> cuckoo_client_create sha F clog (PpCuckoo p) true = Ok c ->
  byte_records K -> byte_records V -> holds (cd_keys db) K -> holds (cd_values db) V -> length V = length K -> cd_bits db = length K ->
  cuckoo_create_plain sha F clog p (Some db) = Ok s -> channel_ok ch ->
  forall aes qs qs' seeds pad l h st e,
  cuckoo_create_plain_requests aes c qs seeds pad = Ok (l, h, st) -> ch_enc ch (ch_ser ch h) (ch_context ch) = Ok e ->
  length qs' = length qs -> fresh_pad pad ->
  let ps := dense_params clog (cp_buckets p) in
  let d := client_dpf (cc_dense c) in
  let buckets := buckets_of sha (hf_seed (cp_hash p)) (cp_buckets p) (Z.to_nat (cp_functions p)) in
  N.of_nat (length (buckets qs)) < 2 ^ 64 ->
  all_apart aes ps d false (query_pairs l h (buckets qs) (buckets qs')) ->
  let uses := others_uses aes ps d false (query_pairs l h (buckets qs) (buckets qs')) ++
              pad_uses pad (length (buckets qs) * (longest K + longest V)) in
  let reply := fun g => helper_reply_to g ch (cuckoo_handle_plain g t s) e in
  exists aes2, cuckoo_create_plain_requests aes2 c qs' seeds pad = Ok (l, h, CsCuckoo pad qs') /\ reply aes2 = reply aes /\
    agree_off uses aes aes2 /\
    (on_blocks aes -> (forall i, fst (seeds i) < 2 ^ 128 /\ snd (seeds i) < 2 ^ 128) -> on_blocks aes2) /\
    forall adversary : request * res response -> oracle_program,
      let view := (RqLeader (Some l) (Some e), reply aes) in
      disjoint (asked aes (adversary view)) uses ->
      run_program aes2 (adversary view) = run_program aes (adversary view) /\
      asked aes2 (adversary view) = asked aes (adversary view).
Proof.
  intros sha F clog p c t K V db s ch Hsha Hlt HL HT Hc HBK HBV HHK HHV HVK Hbits Hs HC aes qs qs' seeds pad l h st e H HE HLq HF ps d buckets Hsz HA uses reply.
  destruct (C50_cuckoo_hides sha F clog p c Hsha Hlt HL Hc false aes qs qs' seeds pad l h st H HLq HA) as (aes1 & H1 & _ & H2 & H3 & _).
  destruct (cuckoo_client_parts sha F clog p c Hsha Hlt Hc) as (Hpos & Hdc & EQ). fold buckets in EQ.
  assert (HX : forall g q st, cuckoo_create_plain_requests g c q seeds pad = Ok (l, h, st) ->
     create_incremental F (dense_params clog (cp_buckets p)) = Ok (dc_dpf (cc_dense c)) /\ hq_seed h = pad /\ length (pq_keys (inner_plain h)) = length (buckets q) /\
     exists E, mapM (dense_expand g (dc_dpf (cc_dense c))) (pq_keys (inner_plain h)) = Ok E /\ length E = length (buckets q) /\
            Forall (fun e => length e = nblocks clog (cp_buckets p)) E).
  { intros g q st0 Hg. rewrite EQ in Hg. bind_inv Hg. destruct a as [[l0 h0] st1]. destruct (add_fingerprint (cc_fingerprint c) l0 h0) as [l1 h1] eqn:EF. injection Hg as <- <- _.
    destruct (fingerprint_plain _ _ _ _ _ EF) as [-> ->].
    destruct (honest_expands g F clog _ _ _ seeds pad l0 h0 st1 (conj Hpos Hlt) HL Hdc Hb) as (Z1 & _ & Z2 & Z3 & Z4). auto. }
  destruct (HX aes qs st H) as (Hd & Hp & HK & E & X1 & X2 & X3). destruct (HX aes1 qs' _ H1) as (_ & _ & HK' & E' & Y1 & Y2 & Y3).
  unfold cuckoo_create_plain in Hs.
  bind_inv Hs. bind_inv Hs. bind_inv Hs. bind_inv Hs. injection Hb2 as <-. bind_inv Hs. apply check_ok in Hb2. bind_inv Hs. bind_inv Hs. injection Hs as Hs.
  rewrite Hd in Hb3. injection Hb3 as <-.
  destruct (cuckoo_alike aes aes1 (dc_dpf (cc_dense c)) (inner_plain h) E E' clog (cp_buckets p) t s K V (conj Hpos Hlt) HL HT) as [HAl HSz];
    try assumption; try (subst s; reflexivity || assumption); try lia.
  rewrite HK in HSz.
  destruct (view_step ch aes aes1 (fun g => cuckoo_handle_plain g t s) h e _ (length (buckets qs) * (longest K + longest V))
      (fun g => cuckoo_create_plain_requests g c qs' seeds pad = Ok (l, h, CsCuckoo pad qs')) HC HE (uses_fixed_keys aes ps d false (query_pairs l h (buckets qs) (buckets qs')))) as (aes2 & R1 & R2 & R3 & R4);
    try eassumption.
  - rewrite Hp. exact HF.
  - intros g g' Hg Hr. rewrite <- (cuckoo_requests_same g g' Hg). exact Hr.
  - intros g g' Hg req. apply cuckoo_handle_plain_same, Hg.
  - apply total_bound; [exact Hsz|]. pose proof (longest_lt K HBK). pose proof (longest_lt V HBV). lia.
  - rewrite Hp in R3. exists aes2. split; [exact R1|]. split; [exact R2|]. split; [exact R3|]. split; [intros B S; apply R4, H3; assumption|].
    intros adversary view HQ. apply (program_agree uses); assumption.
Qed.
Print Assumptions C73_cuckoo.

Theorem C73_simple : forall sha F clog p c t R db s ch, (forall x, length (sha x) = 32%nat) -> (sp_buckets p < 2147483648)%Z ->
  clog_ok clog (sp_buckets p) -> target_ok t -> simple_client_create sha F clog (PpSimple p) true = Ok c ->
  byte_records R -> holds (sd_dense db) R -> sd_bits db = Z.of_nat (length R) ->
  simple_create_plain sha F clog p (Some db) = Ok s -> channel_ok ch ->
  forall aes qs qs' seeds pad l h st e,
  simple_create_plain_requests aes c qs seeds pad = Ok (l, h, st) -> ch_enc ch (ch_ser ch h) (ch_context ch) = Ok e ->
  length qs' = length qs -> fresh_pad pad ->
  let ps := dense_params clog (sp_buckets p) in
  let d := client_dpf (sc_dense c) in
  let buckets := buckets_of sha (hf_seed (sp_hash p)) (sp_buckets p) 1 in
  N.of_nat (length (buckets qs)) < 2 ^ 64 ->
  all_apart aes ps d false (query_pairs l h (buckets qs) (buckets qs')) ->
  let uses := others_uses aes ps d false (query_pairs l h (buckets qs) (buckets qs')) ++
              pad_uses pad (length (buckets qs) * longest R) in
  let reply := fun g => helper_reply_to g ch (simple_handle_plain g t s) e in
  exists aes2, simple_create_plain_requests aes2 c qs' seeds pad = Ok (l, h, CsSimple pad qs') /\ reply aes2 = reply aes /\
    agree_off uses aes aes2 /\
    (on_blocks aes -> (forall i, fst (seeds i) < 2 ^ 128 /\ snd (seeds i) < 2 ^ 128) -> on_blocks aes2) /\
    forall adversary : request * res response -> oracle_program,
      let view := (RqLeader (Some l) (Some e), reply aes) in
      disjoint (asked aes (adversary view)) uses ->
      run_program aes2 (adversary view) = run_program aes (adversary view) /\
      asked aes2 (adversary view) = asked aes (adversary view).
Proof.
  intros sha F clog p c t R db s ch Hsha Hlt HL HT Hc HB HH Hbits Hs HC aes qs qs' seeds pad l h st e H HE HLq HF ps d buckets Hsz HA uses reply.
  destruct (C50_simple_hides sha F clog p c Hsha Hlt HL Hc false aes qs qs' seeds pad l h st H HLq HA) as (aes1 & H1 & _ & H2 & H3 & _).
  destruct (simple_client_parts sha F clog p c Hsha Hlt Hc) as (Hpos & Hdc & EQ). fold buckets in EQ.
  assert (HX : forall g q st, simple_create_plain_requests g c q seeds pad = Ok (l, h, st) ->
     create_incremental F (dense_params clog (sp_buckets p)) = Ok (dc_dpf (sc_dense c)) /\ hq_seed h = pad /\ length (pq_keys (inner_plain h)) = length (buckets q) /\
     exists E, mapM (dense_expand g (dc_dpf (sc_dense c))) (pq_keys (inner_plain h)) = Ok E /\ length E = length (buckets q) /\
            Forall (fun e => length e = nblocks clog (sp_buckets p)) E).
  { intros g q st0 Hg. rewrite EQ in Hg. bind_inv Hg. destruct a as [[l0 h0] st1]. destruct (add_fingerprint (sc_fingerprint c) l0 h0) as [l1 h1] eqn:EF. injection Hg as <- <- _.
    destruct (fingerprint_plain _ _ _ _ _ EF) as [-> ->].
    destruct (honest_expands g F clog _ _ _ seeds pad l0 h0 st1 (conj Hpos Hlt) HL Hdc Hb) as (Z1 & _ & Z2 & Z3 & Z4). auto. }
  destruct (HX aes qs st H) as (Hd & Hp & HK & E & X1 & X2 & X3). destruct (HX aes1 qs' _ H1) as (_ & _ & HK' & E' & Y1 & Y2 & Y3).
  unfold simple_create_plain in Hs.
  bind_inv Hs. bind_inv Hs. bind_inv Hs. injection Hb1 as <-. bind_inv Hs. apply check_ok in Hb1. bind_inv Hs. bind_inv Hs. injection Hs as Hs.
  rewrite Hd in Hb2. injection Hb2 as <-.
  destruct (simple_alike aes aes1 (dc_dpf (sc_dense c)) (inner_plain h) E E' clog (sp_buckets p) t s R (conj Hpos Hlt) HL HT) as [HAl HSz];
    try assumption; try (subst s; reflexivity || assumption); try lia.
  rewrite HK in HSz.
  destruct (view_step ch aes aes1 (fun g => simple_handle_plain g t s) h e _ (length (buckets qs) * longest R)
      (fun g => simple_create_plain_requests g c qs' seeds pad = Ok (l, h, CsSimple pad qs')) HC HE (uses_fixed_keys aes ps d false (query_pairs l h (buckets qs) (buckets qs')))) as (aes2 & R1 & R2 & R3 & R4);
    try eassumption.
  - rewrite Hp. exact HF.
  - intros g g' Hg Hr. rewrite <- (simple_requests_same g g' Hg). exact Hr.
  - intros g g' Hg req. apply simple_handle_plain_same, Hg.
  - apply total_bound; [exact Hsz|]. pose proof (longest_lt R HB). lia.
  - rewrite Hp in R3. exists aes2. split; [exact R1|]. split; [exact R2|]. split; [exact R3|]. split; [intros B S; apply R4, H3; assumption|].
    intros adversary view HQ. apply (program_agree uses); assumption.
Qed.
Print Assumptions C73_simple.

(** ** As many causes *)

Lemma walk_same : forall g g', same_prg g g' -> forall cs p n, DpfTree.walk g cs p n = DpfTree.walk g' cs p n.
Proof.
  intros g g' Hg. induction cs as [|c cs IH]; intros p n; cbn [DpfTree.walk]; [reflexivity|]. rewrite IH. f_equal. unfold DpfTree.step, DpfTree.hash.
  rewrite (Hg (if N.testbit p (N.of_nat (length cs)) then kPrgKeyRight else kPrgKeyLeft)); [reflexivity|].
  destruct (N.testbit _ _); [right; left|left]; reflexivity.
Qed.
Lemma path_uses_same : forall g g' ps d key alpha, same_prg g g' -> path_uses g ps d key alpha = path_uses g' ps d key alpha.
Proof.
  intros g g' ps d key alpha Hg. unfold path_uses, seed_uses.
  assert (HN : forall i, path_node g (last_ld ps) key alpha i = path_node g' (last_ld ps) key alpha i) by (intros i; apply walk_same, Hg).
  f_equal.
  - apply flat_map_ext. intros i. rewrite HN. reflexivity.
  - apply flat_map_ext. intros i. rewrite HN. reflexivity.
Qed.
Lemma others_uses_same : forall g g' ps d f l, same_prg g g' -> others_uses g ps d f l = others_uses g' ps d f l.
Proof. intros g g' ps d f l Hg. unfold others_uses. apply flat_map_ext. intros j. apply path_uses_same, Hg. Qed.
Lemma all_apart_same : forall g g' ps d f l, same_prg g g' -> all_apart g ps d f l -> all_apart g' ps d f l.
Proof.
  intros g g' ps d f l Hg [H1 H2]. unfold all_apart. rewrite <- (others_uses_same g g') by exact Hg. split; [exact H1|].
  intros j Hj. rewrite <- !(path_uses_same g g') by exact Hg. apply H2, Hj.
Qed.
Lemma undo_all_ext : forall ps d f js g g', (forall k x, g k x = g' k x) -> forall k x,
  DpfBatch.undo_all ps d f js g k x = DpfBatch.undo_all ps d f js g' k x.
Proof.
  intros ps d f. induction js as [|j js IH]; intros g g' Hg k x; cbn [DpfBatch.undo_all]; [apply Hg|].
  apply DpfBatch.exchange_ext. apply IH, Hg.
Qed.

(** The values under [key] replaced by 0, or by those of another cipher. *)
Definition blank (key : N) (g : N -> N -> N) : N -> N -> N := fun k x => if k =? key then 0 else g k x.
Definition join (key : N) (g under_key : N -> N -> N) : N -> N -> N := fun k x => if k =? key then under_key k x else g k x.
Lemma blank_same : forall pad g, fresh_pad pad -> same_prg g (blank (le_decode pad) g).
Proof. intros pad g HF k x Hk. unfold blank. destruct (N.eqb_spec k (le_decode pad)) as [->|]; [contradiction|reflexivity]. Qed.
Lemma join_same : forall pad g g', fresh_pad pad -> same_prg g (join (le_decode pad) g g').
Proof. intros pad g g' HF k x Hk. unfold join. destruct (N.eqb_spec k (le_decode pad)) as [->|]; [contradiction|reflexivity]. Qed.
Lemma same_prg_trans : forall a b c, same_prg a b -> same_prg b c -> same_prg a c.
Proof. intros a b c H1 H2 k x Hk. rewrite H1, H2 by exact Hk. reflexivity. Qed.
Lemma same_prg_sym : forall a b, same_prg a b -> same_prg b a.
Proof. intros a b H k x Hk. symmetry. apply H, Hk. Qed.

(** The reply of a plain server to the Helper's part of a request. *)
Definition plain_reply (hp : (N -> N -> N) -> request -> res response) (g : N -> N -> N)
    (requests : res (plain_request * helper_request * client_state)) : res response :=
  match requests with Ok (_, h, _) => hp g (RqPlain (inner_plain h)) | _ => UB end.

(** The exchange of the queries, with the pad, is injective on the ciphers where the blocks do not coincide, so that
    everything the Leader receives has as many causes for [qs] as for [qs']. *)
Theorem C73_dense_bijection : forall F clog n c t records db s ch, (0 < n < 2147483648)%Z -> clog_ok clog n -> target_ok t ->
  dense_client_create F clog (CfgDense n) true = Ok c ->
  byte_records records -> holds db records -> dense_create_plain F clog (CfgDense n) (Some db) = Ok s -> channel_ok ch ->
  forall seeds pad, (forall i, fst (seeds i) < 2 ^ 128 /\ snd (seeds i) < 2 ^ 128) -> fresh_pad pad ->
  exists exchange undo : list Z -> list Z -> (N -> N -> N) -> (N -> N -> N),
  forall aes qs qs' l h st e, on_blocks aes ->
  dense_create_plain_requests aes c qs seeds pad = Ok (l, h, st) -> ch_enc ch (ch_ser ch h) (ch_context ch) = Ok e ->
  length qs' = length qs -> Forall (fun q => 0 <= q < n)%Z qs' -> N.of_nat (length qs) < 2 ^ 64 ->
  all_apart aes (dense_params clog n) (client_dpf c) false (query_pairs l h qs qs') ->
  let uses := fun g a b => others_uses g (dense_params clog n) (client_dpf c) false (query_pairs l h a b) ++ pad_uses pad (length qs * longest records) in
  let reply := fun g => helper_reply_to g ch (dense_handle_plain g t s) e in
  let aes2 := exchange qs qs' aes in
  on_blocks aes2 /\ dense_create_plain_requests aes2 c qs' seeds pad = Ok (l, h, st) /\ reply aes2 = reply aes /\
  all_apart aes2 (dense_params clog n) (client_dpf c) false (query_pairs l h qs' qs) /\
  uses aes2 qs' qs = uses aes qs qs' /\ agree_off (uses aes qs qs') aes aes2 /\
  forall k x, undo qs qs' aes2 k x = aes k x.
Proof.
  intros F clog n c t records db s ch Hn HL HT Hc HB HH Hs HC seeds pad HS HF.
  set (key := le_decode pad). set (hp := fun g => dense_handle_plain g t s). set (ps := dense_params clog n). set (d := client_dpf c).
  set (X := fun qs qs' => DpfBatch.exchange_all ps d false (query_jobs seeds qs qs')).
  set (U := fun qs qs' => DpfBatch.undo_all ps d false (query_jobs seeds qs qs')).
  exists (fun qs qs' aes => let aes1 := join key (X qs qs' (blank key aes)) aes in
            remask pad (reply_difference (plain_reply hp aes (dense_create_plain_requests aes c qs seeds pad))
                                         (plain_reply hp aes1 (dense_create_plain_requests aes1 c qs' seeds pad))) aes1).
  exists (fun qs qs' aes2 => let aes0 := join key (U qs qs' (blank key aes2)) aes2 in
            remask pad (reply_difference (plain_reply hp aes0 (dense_create_plain_requests aes0 c qs seeds pad))
                                         (plain_reply hp aes2 (dense_create_plain_requests aes2 c qs' seeds pad))) aes0).
  intros aes qs qs' l h st e HO H HE HLq HV Hsz HA uses reply. cbv zeta.
  destruct (client_created F clog n c Hn Hc) as [Hd Ec].
  pose proof (blank_same pad aes HF) as S0. fold key in S0.
  assert (HO0 : on_blocks (blank key aes)). { intros k x Hx. unfold blank. destruct (k =? key); [reflexivity|auto]. }
  pose proof H as H0. rewrite (dense_requests_same _ _ S0), Ec in H0.
  destruct (PirPrivacy.dense_exchange F clog n Hn HL (dc_dpf c) Hd false seeds HS (blank key aes) qs qs' pad l h st HO0 H0 HLq HV
              (all_apart_same _ _ _ _ _ _ S0 HA)) as (E1 & E2 & E3 & E4 & E5 & E6).
  rewrite <- Ec in E2. fold (client_dpf c) in E1, E2, E3, E4, E5, E6. fold ps d in E1, E2, E3, E4, E5, E6.
  set (aes1' := X qs qs' (blank key aes)) in *. change (DpfBatch.exchange_all ps d false (query_jobs seeds qs qs') (blank key aes)) with aes1' in *.
  set (aes1 := join key aes1' aes). pose proof (join_same pad aes1' aes HF : same_prg aes1' aes1) as S1.
  pose proof E2 as H1. rewrite (dense_requests_same _ _ S1) in H1. rewrite H, H1. cbn [plain_reply].
  assert (EU : others_uses (blank key aes) ps d false (query_pairs l h qs qs') = others_uses aes ps d false (query_pairs l h qs qs')) by (symmetry; apply others_uses_same, S0).
  rewrite EU in E4, E5.
  assert (A1 : agree_off (others_uses aes ps d false (query_pairs l h qs qs')) aes aes1).
  { intros k x Hx. unfold aes1, join. destruct (N.eqb_spec k key) as [|Hk]; [reflexivity|]. rewrite E5 by exact Hx. unfold blank.
    destruct (N.eqb_spec k key); [contradiction|reflexivity]. }
  destruct (honest_expands aes F clog n c qs seeds pad l h st Hn HL Hc H) as (_ & _ & Hp & HK & E & X1 & X2 & X3).
  destruct (honest_expands aes1 F clog n c qs' seeds pad l h st Hn HL Hc H1) as (_ & _ & _ & _ & E' & Y1 & Y2 & Y3).
  assert (Hsd : ds_dpf s = dc_dpf c /\ ds_db s = db /\ (Z.of_nat (length records) <= n)%Z).
  { unfold dense_create_plain in Hs. bind_inv Hs. injection Hb as <-. bind_inv Hs. bind_inv Hs. apply check_ok in Hb0. bind_inv Hs. injection Hs as <-.
    rewrite Hd in Hb1. injection Hb1 as <-. destruct HH as (_ & HH & _). cbn [ds_dpf ds_db]. repeat split; lia. }
  destruct Hsd as (Hsd1 & Hsd2 & Hlen).
  destruct (dense_alike aes aes1 (dc_dpf c) (inner_plain h) E E' clog n t s records Hn HL HT) as [HAl HSz]; try assumption; try (rewrite Hsd2; assumption); try lia.
  rewrite HK in HSz.
  set (D := reply_difference (hp aes (RqPlain (inner_plain h))) (hp aes1 (RqPlain (inner_plain h)))).
  assert (HLen : length D = reply_size (hp aes (RqPlain (inner_plain h)))) by (apply reply_difference_length, HAl).
  set (aes2 := remask pad D aes1). pose proof (remask_prg pad D aes1 HF : same_prg aes1 aes2) as S2.
  pose proof (same_prg_trans _ _ _ S1 S2) as S12.
  destruct (channel_decrypts ch h e HC HE) as [HDc HPc].
  assert (HTot : N.of_nat (length qs * longest records) <= 2 ^ 132). { apply total_bound; [exact Hsz|]. pose proof (longest_lt records HB). lia. }
  assert (HX : hp aes2 (RqPlain (inner_plain h)) = hp aes1 (RqPlain (inner_plain h))) by (symmetry; apply dense_handle_plain_same, S2).
  assert (H2 : dense_create_plain_requests aes2 c qs' seeds pad = Ok (l, h, st)) by (rewrite <- (dense_requests_same _ _ S2); exact H1).
  split; [|split; [exact H2|split; [|split; [|split; [|split]]]]].
  - apply remask_blocks. intros k x Hx. unfold aes1, join. destruct (k =? key); auto.
  - unfold reply, helper_reply_to.
    pose proof (helper_alike aes aes1 (ch_par ch) (ch_dec ch) (ch_context ch) e _ h (hp aes) (hp aes1) HDc HPc HAl ltac:(unfold hp in *; lia)) as HR. cbv zeta in HR.
    rewrite Hp in HR. fold D aes2 in HR.
    refine (eq_trans _ (HR _)); [|intros x; unfold aes1, join; fold key; rewrite N.eqb_refl; reflexivity].
    rewrite !(helper_reply aes2 (ch_par ch) (ch_dec ch) (ch_context ch) e _ h _ HDc HPc). fold (hp aes2) (hp aes1). rewrite HX. reflexivity.
  - apply (all_apart_same aes1'); assumption.
  - unfold uses. f_equal. rewrite <- E4. symmetry. apply others_uses_same, S12.
  - intros k x Hx. unfold aes2. rewrite (remask_agree pad D aes1).
    + apply A1. intros Hin. apply Hx. apply in_or_app. left. exact Hin.
    + intros Hin. apply Hx. apply in_or_app. right. apply (pad_uses_mono _ (length D)); [unfold hp in *; lia|exact Hin].
  - assert (HBl : forall k x, blank key aes2 k x = aes1' k x).
    { intros k x. unfold blank. destruct (N.eqb_spec k key) as [->|Hk].
      - symmetry. rewrite E5; [unfold blank; rewrite N.eqb_refl; reflexivity|]. intros Hin. apply HF. exact (uses_fixed_keys _ _ _ _ _ _ _ Hin).
      - unfold aes2, remask. fold key. destruct (N.eqb_spec k key); [contradiction|]. cbn [andb]. unfold aes1, join. destruct (N.eqb_spec k key); [contradiction|reflexivity]. }
    set (aes0 := join key (U qs qs' (blank key aes2)) aes2).
    assert (H0k : forall k x, k <> key -> aes0 k x = aes k x).
    { intros k x Hk. unfold aes0, join. destruct (N.eqb_spec k key); [contradiction|]. unfold U. rewrite (undo_all_ext _ _ _ _ _ _ HBl), E6. unfold blank.
      destruct (N.eqb_spec k key); [contradiction|reflexivity]. }
    assert (S00 : same_prg aes0 aes). { intros k x Hk. apply H0k. intros ->. contradiction. }
    intros k x. rewrite (dense_requests_same _ _ S00), H, H2. cbn [plain_reply].
    assert (HX0 : hp aes0 (RqPlain (inner_plain h)) = hp aes (RqPlain (inner_plain h))) by (apply dense_handle_plain_same, S00).
    rewrite HX0, HX. fold D. destruct (N.eq_dec k key) as [->|Hk].
    + assert (HZ : aes0 key x = aes2 key x) by (unfold aes0, join; rewrite N.eqb_refl; reflexivity).
      transitivity (remask pad D aes2 key x); [unfold remask; rewrite HZ; reflexivity|]. unfold aes2. rewrite remask_twice.
      unfold aes1, join. rewrite N.eqb_refl. reflexivity.
    + unfold remask. fold key. destruct (N.eqb_spec k key); [contradiction|]. cbn [andb]. apply H0k, Hk.
Qed.
Print Assumptions C73_dense_bijection.

(** ** The hypotheses can be met *)

Example C73_helper_nonvacuous :
  let hp l := fun q => match q with RqPlain {| pq_keys := [] |} => Ok (Some l) | _ => Err INVALID_ARGUMENT end in
  alike (hp [[1; 2; 3]; repeat 200 20] (RqPlain (inner_plain xp_inner))) (hp [[255; 0; 7]; repeat 77 20] (RqPlain (inner_plain xp_inner))) /\
  reply_size (hp [[1; 2; 3]; repeat 200 20] (RqPlain (inner_plain xp_inner))) = 23%nat /\
  is_ok (handle_request ex_aes (fun _ => Some xp_inner) (hp [[1; 2; 3]; repeat 200 20]) (Helper (fun _ _ => Ok []) []) (RqHelper [])) = true.
Proof. split; [split; [reflexivity|split; repeat constructor]|]. split; [reflexivity|]. vm_compute. reflexivity. Qed.

Lemma xw_fresh : fresh_pad xp_seed.
Proof. unfold fresh_pad. vm_compute. intuition discriminate. Qed.

(** Five records; two queries, and two others. *)
Example C73_dense_nonvacuous :
  clog_ok xp_clog 5 /\ byte_records xp_five /\ channel_ok xq_channel /\ fresh_pad xp_seed /\
  on_blocks ex_aes /\ (forall i, fst (xw_seeds i) < 2 ^ 128 /\ snd (xw_seeds i) < 2 ^ 128) /\
  match (db <- fst (build xa_alloc (fold_left insert xp_five new_builder)) ;;
         s <- dense_create_plain ex_F xp_clog (CfgDense 5) (Some db) ;;
         c <- dense_client_create ex_F xp_clog (CfgDense 5) true ;; Ok (db, s, c)) with
  | Ok (db, s, c) => holds db xp_five /\
      match (r <- dense_create_plain_requests ex_aes c [0; 4]%Z xw_seeds xp_seed ;;
             e <- ch_enc xq_channel (ch_ser xq_channel (snd (fst r))) (ch_context xq_channel) ;; Ok (r, e)) with
      | Ok ((l, h, _), e) =>
          all_apart ex_aes (dense_params xp_clog 5) (client_dpf c) false (query_pairs l h [0; 4]%Z [2; 3]%Z) /\
          is_ok (helper_reply_to ex_aes xq_channel (dense_handle_plain ex_aes xt_t s) e) = true
      | _ => False
      end
  | _ => False
  end.
Proof.
  split; [apply xp_clog_ok; reflexivity|]. split.
  { repeat (constructor; [split; [repeat constructor|vm_compute; reflexivity]|]). constructor. }
  split; [exact xq_channel_ok|]. split; [exact xw_fresh|]. split; [exact ex_on_blocks|]. split; [exact xw_seeds_ok|].
  set (r := (db <- fst _ ;; _)). vm_compute in r. unfold r. split; [solve_holds|].
  match goal with |- match ?x with Ok _ => _ | _ => _ end => set (q := x) end. vm_compute in q. unfold q.
  split; [apply apartb_ok; vm_compute; reflexivity|]. vm_compute. reflexivity.
Qed.

Example C73_sparse_nonvacuous :
  match xq_db, cuckoo_client_create xq_sha ex_F xp_clog (PpCuckoo (xq_params 4)) true with
  | Ok db, Ok c => holds (cd_keys db) xq_K /\ holds (cd_values db) xq_V /\ byte_records xq_K /\ byte_records xq_V /\ cd_bits db = 4%nat /\
      is_ok (cuckoo_create_plain xq_sha ex_F xp_clog (xq_params 4) (Some db)) = true /\
      match cuckoo_create_plain_requests ex_aes c xw_qs xw_seeds xp_seed with
      | Ok (l, h, _) => let buckets := buckets_of xq_sha [1] 4 2 in length (buckets xw_qs) = 4%nat /\
          all_apart ex_aes (dense_params xp_clog 4) (client_dpf (cc_dense c)) false (query_pairs l h (buckets xw_qs) (buckets xw_qs'))
      | _ => False
      end
  | _, _ => False
  end /\
  match xr_db, simple_client_create xq_sha ex_F xp_clog (PpSimple xr_params) true with
  | Ok db, Ok c => exists R, holds (sd_dense db) R /\ byte_records R /\ sd_bits db = Z.of_nat (length R) /\ ~ all_empty R /\
      is_ok (simple_create_plain xq_sha ex_F xp_clog xr_params (Some db)) = true /\
      match simple_create_plain_requests ex_aes c xw_qs xw_seeds xp_seed with
      | Ok (l, h, _) => let buckets := buckets_of xq_sha [1] 3 1 in length (buckets xw_qs) = 2%nat /\
          all_apart ex_aes (dense_params xp_clog 3) (client_dpf (sc_dense c)) false (query_pairs l h (buckets xw_qs) (buckets xw_qs'))
      | _ => False
      end
  | _, _ => False
  end.
Proof.
  split.
  - unfold xq_db. set (rc := cuckoo_client_create _ _ _ _ _).
    assert (HB : match rc with Ok c => match cuckoo_create_plain_requests ex_aes c xw_qs xw_seeds xp_seed with
       | Ok (l, h, _) => Nat.eqb (length (buckets_of xq_sha [1] 4 2 xw_qs)) 4 && apartb ex_aes (dense_params xp_clog 4) (client_dpf (cc_dense c)) false
                           (query_pairs l h (buckets_of xq_sha [1] 4 2 xw_qs) (buckets_of xq_sha [1] 4 2 xw_qs'))
       | _ => false end | _ => false end = true) by (vm_compute; reflexivity).
    destruct rc as [c| | |]; try discriminate.
    split; [solve_holds|]. split; [solve_holds|]. split; [solve_records|]. split; [solve_records|]. split; [reflexivity|]. split; [vm_compute; reflexivity|].
    destruct (cuckoo_create_plain_requests _ _ _ _ _) as [[[l h] st]| | |]; try discriminate.
    rewrite andb_true_iff in HB. split; [apply Nat.eqb_eq, HB|]. apply apartb_ok, HB.
  - unfold xr_db. set (rc := simple_client_create _ _ _ _ _).
    assert (HB : match rc with Ok c => match simple_create_plain_requests ex_aes c xw_qs xw_seeds xp_seed with
       | Ok (l, h, _) => Nat.eqb (length (buckets_of xq_sha [1] 3 1 xw_qs)) 2 && apartb ex_aes (dense_params xp_clog 3) (client_dpf (sc_dense c)) false
                           (query_pairs l h (buckets_of xq_sha [1] 3 1 xw_qs) (buckets_of xq_sha [1] 3 1 xw_qs'))
       | _ => false end | _ => false end = true) by (vm_compute; reflexivity).
    destruct rc as [c| | |]; try discriminate.
    eexists. split; [split; [eexists; split; [vm_compute; reflexivity|reflexivity]|split; vm_compute; reflexivity]|]. cbn [map v_data].
    split; [solve_records|]. split; [reflexivity|]. split; [intros HX; vm_compute in HX; repeat (inversion HX as [|? ? HX1 HX2]; subst; try discriminate; clear HX; rename HX2 into HX)|].
    split; [vm_compute; reflexivity|].
    destruct (simple_create_plain_requests _ _ _ _ _) as [[[l h] st]| | |]; try discriminate.
    rewrite andb_true_iff in HB. split; [apply Nat.eqb_eq, HB|]. apply apartb_ok, HB.
Qed.
