(** A serializer and a parser of helper requests with [parse (serialize h) = Some h] for all [h]:
    the examples of the end-to-end theorems use them for the channel between client and Helper.
    They are not the protobuf wire format. *)
From Coq Require Import List NArith ZArith Lia Bool.
From Verif Require Import Base ListUtil ValueTypesModel DpfModel PirDbModel PirModel.
Import ListNotations.
Open Scope N_scope.

(** * Trees of numbers *)

Inductive tree := Node (a : N) (children : list tree).
Fixpoint tree_encode (t : tree) : list N :=
  match t with Node a ts => a :: N.of_nat (length ts) :: flat_map tree_encode ts end.
Section Many.
Variable decode : list N -> option (tree * list N).
Fixpoint decode_many (n : nat) (l : list N) : option (list tree * list N) :=
  match n with
  | O => Some ([], l)
  | S n' => match decode l with
            | Some (t, l') => match decode_many n' l' with Some (ts, l'') => Some (t :: ts, l'') | None => None end
            | None => None
            end
  end.
End Many.
Fixpoint tree_decode (fuel : nat) (l : list N) : option (tree * list N) :=
  match fuel, l with
  | S fuel', a :: n :: l' =>
      match decode_many (tree_decode fuel') (N.to_nat n) l' with
      | Some (ts, l'') => Some (Node a ts, l'')
      | None => None
      end
  | _, _ => None
  end.

Section TreeInd.
Variable P : tree -> Prop.
Hypothesis H : forall a ts, Forall P ts -> P (Node a ts).
Fixpoint tree_induction (t : tree) : P t :=
  match t with
  | Node a ts => H a ts ((fix go ts : Forall P ts := match ts with [] => Forall_nil P | t :: ts' => Forall_cons t (tree_induction t) (go ts') end) ts)
  end.
End TreeInd.

Lemma decode_encode : forall t fuel rest, (length (tree_encode t) <= fuel)%nat -> tree_decode fuel (tree_encode t ++ rest) = Some (t, rest).
Proof.
  induction t as [a ts IH] using tree_induction. intros [|fuel] rest HF; cbn [tree_encode length] in HF; [lia|].
  cbn [tree_encode app tree_decode]. rewrite Nat2N.id.
  assert (HM : forall ts, Forall (fun t => forall fuel rest, (length (tree_encode t) <= fuel)%nat -> tree_decode fuel (tree_encode t ++ rest) = Some (t, rest)) ts ->
    (length (flat_map tree_encode ts) <= fuel)%nat ->
    decode_many (tree_decode fuel) (length ts) (flat_map tree_encode ts ++ rest) = Some (ts, rest)).
  { clear. induction ts as [|t ts IHts]; intros HF HL; [reflexivity|]. fcons HF Ht HF. cbn [flat_map length decode_many] in *.
    rewrite app_length in HL. rewrite <- app_assoc, Ht by lia. rewrite IHts by (assumption || lia). reflexivity. }
  rewrite HM by (assumption || lia). reflexivity.
Qed.

(** * Messages as trees *)

Definition tree_of_int (i : vinteger) : tree :=
  match i with VIUnset => Node 0 [] | VI64 v => Node 1 [Node v []] | VI128 hi lo => Node 2 [Node hi []; Node lo []] end.
Definition int_of_tree (t : tree) : vinteger :=
  match t with Node 1 [Node v _] => VI64 v | Node 2 [Node hi _; Node lo _] => VI128 hi lo | _ => VIUnset end.
Fixpoint tree_of_value (v : pvalue) : tree :=
  match v with
  | PVUnset => Node 0 []
  | PVInteger i => Node 1 [tree_of_int i]
  | PVTuple els => Node 2 (map tree_of_value els)
  | PVIntModN i => Node 3 [tree_of_int i]
  | PVXor i => Node 4 [tree_of_int i]
  end.
Fixpoint value_of_tree (t : tree) : pvalue :=
  match t with
  | Node 1 [i] => PVInteger (int_of_tree i)
  | Node 2 els => PVTuple (map value_of_tree els)
  | Node 3 [i] => PVIntModN (int_of_tree i)
  | Node 4 [i] => PVXor (int_of_tree i)
  | _ => PVUnset
  end.
Definition tree_of_cword (c : cword) : tree :=
  Node (cw_seed c) (Node (N.b2n (cw_left c)) [] :: Node (N.b2n (cw_right c)) [] :: map tree_of_value (cw_values c)).
Definition cword_of_tree (t : tree) : cword :=
  match t with
  | Node s (Node l _ :: Node r _ :: vs) => {| cw_seed := s; cw_left := l =? 1; cw_right := r =? 1; cw_values := map value_of_tree vs |}
  | _ => {| cw_seed := 0; cw_left := false; cw_right := false; cw_values := [] |}
  end.
Definition tree_of_key (k : dkey) : tree :=
  Node 0 [match k_seed k with Some s => Node 1 [Node s []] | None => Node 0 [] end;
          Node 0 (map tree_of_cword (k_cws k));
          Node (Z.to_N (k_party k)) [Node (Z.to_N (- k_party k)) []];
          Node 0 (map tree_of_value (k_last k))].
Definition key_of_tree (t : tree) : dkey :=
  match t with
  | Node _ [s; Node _ cws; Node p [Node m _]; Node _ last] =>
      {| k_seed := match s with Node _ [Node s _] => Some s | _ => None end; k_cws := map cword_of_tree cws;
         k_party := Z.of_N p - Z.of_N m; k_last := map value_of_tree last |}
  | _ => {| k_seed := None; k_cws := []; k_party := 0; k_last := [] |}
  end.
Definition tree_of_helper (h : helper_request) : tree :=
  Node 0 [match hq_plain h with Some p => Node 1 [Node (pq_fingerprint p) (map tree_of_key (pq_keys p))] | None => Node 0 [] end;
          Node 0 (map (fun b => Node b []) (hq_seed h))].
Definition helper_of_tree (t : tree) : option helper_request :=
  match t with
  | Node _ [p; Node _ seed] =>
      Some {| hq_plain := match p with Node _ [Node f keys] => Some {| pq_keys := map key_of_tree keys; pq_fingerprint := f |} | _ => None end;
              hq_seed := map (fun t => match t with Node b _ => b end) seed |}
  | _ => None
  end.

Lemma map_inverse : forall A B (f : A -> B) (g : B -> A) l, Forall (fun a => g (f a) = a) l -> map g (map f l) = l.
Proof. intros A B f g l H. induction H as [|a l E _ IH]; [reflexivity|]. cbn [map]. rewrite E, IH. reflexivity. Qed.
Lemma map_inverse_all : forall A B (f : A -> B) (g : B -> A) l, (forall a, g (f a) = a) -> map g (map f l) = l.
Proof. intros A B f g l H. apply map_inverse, Forall_forall. intros a _. apply H. Qed.
Lemma int_inverse : forall i, int_of_tree (tree_of_int i) = i.
Proof. intros [|v|hi lo]; reflexivity. Qed.
Section ValueInd.
Variable P : pvalue -> Prop.
Hypothesis HU : P PVUnset.
Hypothesis HI : forall i, P (PVInteger i).
Hypothesis HT : forall els, Forall P els -> P (PVTuple els).
Hypothesis HM : forall i, P (PVIntModN i).
Hypothesis HX : forall i, P (PVXor i).
Fixpoint value_induction (v : pvalue) : P v :=
  match v with
  | PVUnset => HU
  | PVInteger i => HI i
  | PVTuple els => HT els ((fix go l : Forall P l := match l with [] => Forall_nil P | v :: l' => Forall_cons v (value_induction v) (go l') end) els)
  | PVIntModN i => HM i
  | PVXor i => HX i
  end.
End ValueInd.
Lemma value_inverse : forall v, value_of_tree (tree_of_value v) = v.
Proof.
  induction v as [|i|els IH|i|i] using value_induction; cbn [tree_of_value value_of_tree]; rewrite ?int_inverse; try reflexivity.
  f_equal. apply map_inverse, IH.
Qed.
Lemma cword_inverse : forall c, cword_of_tree (tree_of_cword c) = c.
Proof.
  intros [s l r vs]. unfold tree_of_cword, cword_of_tree. cbn [cw_seed cw_left cw_right cw_values].
  rewrite (map_inverse_all _ _ _ _ _ value_inverse). destruct l, r; reflexivity.
Qed.
Lemma key_inverse : forall k, key_of_tree (tree_of_key k) = k.
Proof.
  intros [s cws p last]. unfold tree_of_key, key_of_tree. cbn [k_seed k_cws k_party k_last].
  rewrite (map_inverse_all _ _ _ _ _ value_inverse), (map_inverse_all _ _ _ _ _ cword_inverse).
  replace (Z.of_N (Z.to_N p) - Z.of_N (Z.to_N (- p)))%Z with p by lia. destruct s; reflexivity.
Qed.

Definition ch_serialize (h : helper_request) : bytes := tree_encode (tree_of_helper h).
Definition ch_parse (b : bytes) : option helper_request :=
  match tree_decode (length b) b with Some (t, _) => helper_of_tree t | None => None end.
Theorem ch_round_trip : forall h, ch_parse (ch_serialize h) = Some h.
Proof.
  intros [p seed]. unfold ch_parse, ch_serialize.
  pose proof (decode_encode (tree_of_helper {| hq_plain := p; hq_seed := seed |}) _ [] (Nat.le_refl _)) as E.
  rewrite app_nil_r in E. unfold bytes in *. rewrite E. unfold tree_of_helper, helper_of_tree. cbn [hq_plain hq_seed].
  rewrite (map_inverse_all _ _ (fun b => Node b [])) by reflexivity.
  destruct p as [[keys f]|]; [|reflexivity]. cbn [pq_keys pq_fingerprint]. rewrite (map_inverse_all _ _ _ _ _ key_inverse). reflexivity.
Qed.

(** A toy cipher: every byte plus one. *)
Definition ch_encrypt (m context : bytes) : res bytes := Ok (map N.succ m ++ context).
Definition ch_decrypt (e context : bytes) : res bytes := Ok (map N.pred (firstn (length e - length context) e)).
Theorem ch_cipher : forall m context, exists e, ch_encrypt m context = Ok e /\ ch_decrypt e context = Ok m.
Proof.
  intros m context. eexists. split; [reflexivity|]. unfold ch_decrypt. rewrite app_length.
  replace (length (map N.succ m) + length context - length context)%nat with (length (map N.succ m)) by lia.
  rewrite firstn_app_exact by reflexivity. rewrite map_inverse_all by apply N.pred_succ. reflexivity.
Qed.
