(** Specification vocabulary for the DPF properties: what the parameters promise, and
    sequences of calls on an evaluation context. *)
From Coq Require Import List NArith ZArith QArith Bool.
From Verif Require Import Base ValueTypesModel ValueTypesSpec DpfModel.
Import ListNotations.
Open Scope N_scope.

Inductive Forall3 {A B C} (R : A -> B -> C -> Prop) : list A -> list B -> list C -> Prop :=
| Forall3_nil : Forall3 R [] [] []
| Forall3_cons : forall a b c la lb lc, R a b c -> Forall3 R la lb lc ->
    Forall3 R (a :: la) (b :: lb) (c :: lc).

(** log_domain_size of level [h] and of the last level. *)
Definition level_ld (ps : list param) (h : nat) : N :=
  match nth_error ps h with Some p => Z.to_N (p_ld p) | None => 0 end.
Definition last_ld (ps : list param) : N := level_ld ps (length ps - 1).

(** [T] is the C++ type the caller declared for level [h]. *)
Definition level_has (ps : list param) (h : nat) (T : cty) : Prop :=
  cty_ok T = true /\ exists p, nth_error ps h = Some p /\ denotes (p_type p) T.
(** At every level with type T, the pseudorandom bytes that Create reserves for one tree node
    (blocks_needed_, 16 bytes each) are as many as a conversion to T consumes.  C17 says
    for which types this always holds. *)
Definition roomy (ps : list param) (d : dpf) (T : cty) : Prop :=
  forall h, level_has ps h T -> (bytes_consumed T <= 16 * nth h (d_blocks d) 0)%nat.

(** The prefix of alpha (an element of the last domain) in the domain of level [h]. *)
Definition alpha_prefix (ps : list param) (alpha : N) (h : nat) : N :=
  alpha / 2 ^ (last_ld ps - level_ld ps h).

(** The point function: [v] at [a], the neutral element elsewhere. *)
Definition point_function (T : cty) (a : N) (v : cval) (x : N) : cval :=
  if x =? a then v else vzero T.

(** Two lists of shares reconstruct, position by position, to the point function. *)
Definition reconstruct (T : cty) (a : N) (v : cval) (points : list N) (r0 r1 : list cval) : Prop :=
  Forall3 (gsum T) r0 r1 (map (point_function T a v) points).

(** Calls on an evaluation context. *)
Inductive call :=
| Until (h : nat) (T : cty) (prefixes : list N)
| Next (T : cty) (prefixes : list N).
Definition call_type (k : call) : cty := match k with Until _ T _ => T | Next T _ => T end.
Definition call_prefixes (k : call) : list N :=
  match k with Until _ _ p => p | Next _ p => p end.
(** The level a call evaluates; [prev] is the level of the previous call. *)
Definition call_level (prev : option nat) (k : call) : nat :=
  match k with
  | Until h _ _ => h
  | Next _ _ => match prev with None => 0%nat | Some q => S q end
  end.

Definition run_call (aes : N -> N -> N) (d : dpf) (c : ectx) (k : call)
  : res (list cval) * ectx :=
  match k with
  | Until h T prefixes => evaluate_until aes d T (Z.of_nat h) prefixes c
  | Next T prefixes => evaluate_next aes d T prefixes c
  end.
(** The results of a sequence of calls. *)
Fixpoint run_calls (aes : N -> N -> N) (d : dpf) (c : ectx) (ks : list call)
  : list (res (list cval)) :=
  match ks with
  | [] => []
  | k :: ks' => let '(r, c') := run_call aes d c k in r :: run_calls aes d c' ks'
  end.

(** The 2^g elements that extend prefix [p] by [g] bits, in increasing order. *)
Definition extensions (p g : N) : list N :=
  map (fun i => p * 2 ^ g + N.of_nat i) (seq 0 (N.to_nat (2 ^ g))).
(** The domain elements whose values a call returns, in order. *)
Definition outputs (ps : list param) (prev : option nat) (h : nat) (prefixes : list N) : list N :=
  match prev with
  | None => extensions 0 (level_ld ps h)
  | Some q => flat_map (fun p => extensions p (level_ld ps h - level_ld ps q)) prefixes
  end.
Definition gap (ps : list param) (prev : option nat) (h : nat) : N :=
  level_ld ps h - match prev with None => 0 | Some q => level_ld ps q end.

(** The number of tree nodes a call expands: below 2^31 per prefix (the code counts
    them in an int if there are prefixes) and below 2^60 in total (they are allocated). *)
Definition expansion_fits (d : dpf) (prev : option nat) (h : nat) (prefixes : list N) : Prop :=
  let k := (nth h (d_h2t d) 0 - match prev with None => 0 | Some q => nth q (d_h2t d) 0 end)%nat in
  (prefixes = [] \/ (k < 31)%nat) /\ N.of_nat (Nat.max 1 (length prefixes)) * 2 ^ N.of_nat k < 2 ^ 60.

(** Sequences of calls that the documentation of EvaluateUntil allows: the first call
    has no prefixes; later calls have larger levels and prefixes among the elements
    that the previous call evaluated ([allowed]).  EvaluateUntil also documents a
    limit on the number of outputs. *)
Inductive valid_history (ps : list param) (d : dpf)
  : option nat -> (N -> Prop) -> list call -> Prop :=
| vh_nil : forall prev allowed, valid_history ps d prev allowed []
| vh_cons : forall prev (allowed : N -> Prop) k ks,
    let h := call_level prev k in
    let prefixes := call_prefixes k in
    level_has ps h (call_type k) ->
    match prev with
    | None => prefixes = []
    | Some q => (q < h)%nat /\ prefixes <> [] /\ Forall allowed prefixes
    end ->
    gap ps prev h < 63 ->
    N.of_nat (length prefixes) * 2 ^ gap ps prev h < 2 ^ 63 ->
    expansion_fits d prev h prefixes ->
    valid_history ps d (Some h) (fun x => In x (outputs ps prev h prefixes)) ks ->
    valid_history ps d prev allowed (k :: ks).

(** What EvaluateAt (without context) returns for the elements of each call. *)
Fixpoint at_results (aes : N -> N -> N) (d : dpf) (ps : list param) (key : dkey)
    (prev : option nat) (ks : list call) : list (res (list cval)) :=
  match ks with
  | [] => []
  | k :: ks' =>
      let h := call_level prev k in
      evaluate_at aes d (call_type k) key (Z.of_nat h) (outputs ps prev h (call_prefixes k))
      :: at_results aes d ps key (Some h) ks'
  end.

(** The results of two parties reconstruct call by call to the incremental point
    function with values [vs]. *)
Fixpoint history_reconstructs (ps : list param) (alpha : N) (beta : list pvalue)
    (prev : option nat) (ks : list call) (out0 out1 : list (res (list cval))) : Prop :=
  match ks, out0, out1 with
  | [], [], [] => True
  | k :: ks', r0 :: out0', r1 :: out1' =>
      let h := call_level prev k in
      let T := call_type k in
      (exists l0 l1 b v, r0 = Ok l0 /\ r1 = Ok l1 /\ nth_error beta h = Some b /\ repr T b v /\
         reconstruct T (alpha_prefix ps alpha h) v (outputs ps prev h (call_prefixes k)) l0 l1) /\
      history_reconstructs ps alpha beta (Some h) ks' out0' out1'
  | _, _, _ => False
  end.

(** Contexts reached from CreateEvaluationContext by successful calls.  [prev] is the
    level of the last call that evaluated something; [stored] is the level and the list
    of domain elements to which later calls must be extensions: the prefixes of the last
    EvaluateUntil (with the level they belong to; nothing after the last level) or the
    points of the last EvaluateAt. *)
Inductive after (aes : N -> N -> N) (d : dpf) (ps : list param) (key : dkey)
  : ectx -> option nat -> option (nat * list N) -> Prop :=
| after_create : forall c, create_evaluation_context d key = Ok c ->
    after aes d ps key c None None
| after_until : forall c prev stored h T prefixes r c', after aes d ps key c prev stored ->
    cty_ok T = true -> Forall (fun p => p < 2 ^ 128) prefixes ->
    evaluate_until aes d T h prefixes c = (Ok r, c') ->
    after aes d ps key c' (Some (Z.to_nat h))
      match prev with
      | None => stored
      | Some q => if Nat.eqb (S (Z.to_nat h)) (length ps) then None else Some (q, prefixes)
      end
| after_at : forall c prev stored h T points r c', after aes d ps key c prev stored ->
    level_has ps h T -> points <> [] ->
    evaluate_at_ctx aes d T (Z.of_nat h) points c = (Ok r, c') ->
    after aes d ps key c' (Some h) (Some (h, points)).

(** Element [x] of level [h] extends one of the stored elements, or precedes them. *)
Definition extends (ps : list param) (stored : option (nat * list N)) (h : nat) (x : N) : Prop :=
  match stored with
  | None => True
  | Some (q, l) => (h < q)%nat \/ In (x / 2 ^ (level_ld ps h - level_ld ps q)) l
  end.

(** * Documented parameters *)

(** A supported bit size: a power of two between 1 and 128. *)
Definition bitsize_ok (b : Z) : Prop := exists k, (0 <= k <= 7)%Z /\ b = (2 ^ k)%Z.
(** Well-formed ValueType protos.  The modulus of an IntModN must be set and fit into
    the base integer (a 128-bit modulus always fits and is not looked at). *)
Inductive type_wf : ptype -> Prop :=
| twf_int : forall b, bitsize_ok b -> type_wf (PTInteger b)
| twf_xor : forall b, bitsize_ok b -> type_wf (PTXor b)
| twf_mod : forall b m, bitsize_ok b ->
    (b = 128%Z \/ exists x, encodes m x /\ x < 2 ^ Z.to_N b) -> type_wf (PTIntModN b m)
| twf_tup : forall els, Forall type_wf els -> type_wf (PTTuple els).
(** A security parameter between 0 and 128. *)
Definition sec_ok (s : dbl) : Prop :=
  match s with DFin q => (0 <= q)%Q /\ (q <= 128)%Q | _ => False end.
Record documented (ps : list param) : Prop := {
  doc_nonempty : ps <> [];
  doc_ld : Forall (fun p => 0 <= p_ld p <= 128)%Z ps;
  doc_increasing : forall i j p q, (i < j)%nat -> nth_error ps i = Some p -> nth_error ps j = Some q ->
    (p_ld p < p_ld q)%Z;
  doc_type : Forall (fun p => exists t, p_vt p = Some t /\ type_wf t) ps;
  doc_sec : Forall (fun p => sec_ok (p_sec p)) ps
}.

(** No tuple without elements. *)
Fixpoint no_empty_tuple (t : ptype) : bool :=
  match t with
  | PTTuple els => negb (Nat.eqb (length els) 0) && forallb no_empty_tuple els
  | _ => true
  end.
(** All IntModN elements of one tuple are the same type. *)
Inductive uniform : cty -> Prop :=
| uni_int : forall w, uniform (TInt w)
| uni_xor : forall w, uniform (TXor w)
| uni_mod : forall w m, uniform (TMod w m)
| uni_tup : forall ts, Forall uniform ts ->
    (forall w m w' m', In (TMod w m) ts -> In (TMod w' m') ts -> w = w' /\ m = m') ->
    uniform (TTup ts).

(** The number of integers, IntModN and XorWrapper of a type. *)
Fixpoint leaves (t : ptype) : Z :=
  match t with
  | PTTuple els => fold_right (fun e n => leaves e + n)%Z 0%Z els
  | _ => 1%Z
  end.
(** The security parameter [sec] can be reached when the IntModN elements of a type are
    sampled: alone, or all those of a tuple together (value_type_helpers.cc:71-141 and
    int_mod_n.cc:29-69). *)
Definition mods (ts : list cty) : list cty :=
  filter (fun t => match t with TMod _ _ => true | _ => false end) ts.
Inductive samples_securely (F : fops) : dbl -> cty -> Prop :=
| ss_int : forall sec w, samples_securely F sec (TInt w)
| ss_xor : forall sec w, samples_securely F sec (TXor w)
| ss_mod : forall sec w m, f_gt_level F sec 1 m = false -> samples_securely F sec (TMod w m)
| ss_tup : forall sec ts,
    (forall t, In t ts ->
       samples_securely F (f_add_log2 F sec (N.of_nat (length ts - length (mods ts)))) t) ->
    (forall w m, In (TMod w m) ts -> f_gt_level F sec (N.of_nat (length (mods ts))) m = false) ->
    samples_securely F sec (TTup ts).

(** * Key generation *)

(** Every level has a value type whose C++ type is registered: one of [types] or an
    unsigned integer. *)
Definition registered (ps : list param) (types : list cty) : Prop :=
  Forall (fun p => exists T, In T (types ++ [TInt 128; TInt 64; TInt 32; TInt 16; TInt 8]) /\
                             p_vt p = Some (to_value_type T)) ps.
(** Arguments that GenerateKeysIncremental documents: one beta per level, which is a
    value of the level's type, and alpha in the last domain. *)
Definition keygen_args (ps : list param) (alpha : N) (beta : list pvalue) : Prop :=
  Forall2 (fun p b => exists T v, cty_ok T = true /\ denotes (p_type p) T /\ repr T b v) ps beta /\
  alpha < 2 ^ last_ld ps.

(** * EvaluateAndApply *)

(** What EvaluateAndApply is documented to do, in terms of EvaluateAt: for every level
    in order, pass the values of all keys at their points (shifted to the level) to the
    callback, and stop when it returns false.  Points have [rs] more bits than the last
    domain. *)
Fixpoint apply_spec {S} (aes : N -> N -> N) (d : dpf) (ps : list param) (T : cty) (keys : list dkey)
    (points : list N) (rs : nat) (op : S -> list cval -> S * bool) (n h : nat) (s : S) : res S :=
  match n with
  | O => Ok s
  | Datatypes.S n' =>
      vs <- mapM (fun kx : dkey * N =>
                    r <- evaluate_at aes d T (fst kx) (Z.of_nat h)
                           [snd kx / 2 ^ (N.of_nat rs + last_ld ps - level_ld ps h)] ;;
                    Ok (hd (vzero T) r))
                 (combine keys points) ;;
      let '(s', continue) := op s vs in
      if continue then apply_spec aes d ps T keys points rs op n' (Datatypes.S h) s' else Ok s'
  end.

(** A generated key pair with the arguments it was generated from. *)
Record gen_pair := { gp_alpha : N; gp_beta : list pvalue; gp_key0 : dkey; gp_key1 : dkey }.
Definition generated (aes : N -> N -> N) (d : dpf) (g : gen_pair) : Prop :=
  gp_alpha g < 2 ^ 128 /\
  exists seed0 seed1, generate_keys aes d (gp_alpha g) (gp_beta g) seed0 seed1 = Ok (gp_key0 g, gp_key1 g).

(** * Rejected calls of EvaluateUntil *)

(** The documented reasons to reject a call; [q] is the context's previous level (-1 for
    none). *)
Inductive bad_call (ps : list param) (q : Z) (T : cty) (h : Z) (prefixes : list N) : Prop :=
| bad_level : (h < 0 \/ Z.of_nat (length ps) <= h)%Z -> bad_call ps q T h prefixes
| bad_order : (h <= q)%Z -> bad_call ps q T h prefixes
| bad_type : ~ level_has ps (Z.to_nat h) T -> bad_call ps q T h prefixes
| bad_first : (q < 0)%Z -> prefixes <> [] -> bad_call ps q T h prefixes
| bad_later : (0 <= q)%Z -> prefixes = [] -> bad_call ps q T h prefixes
| bad_range : forall p, In p prefixes -> 2 ^ level_ld ps (Z.to_nat q) <= p < 2 ^ 128 ->
    bad_call ps q T h prefixes.
