(** Specification of C87: what a cache may answer, and trees whose texts are alike. *)
From Coq Require Import String Ascii List Bool Arith.
From Verif Require Import Base XmlM CalcM CacheM.
Import ListNotations.
Open Scope string_scope.
Open Scope list_scope.

(** ** What a cache of the most recent answers does, told from the past only *)
Section Past.
Context {K V : Type}.
Variable dec : forall a b : K, {a = b} + {a <> b}.

(** The different keys that got an answer, the one asked last first. [past] has the calls
    so far with what was answered, the last one first. *)
Fixpoint recent (past : list (K * res V)) : list K :=
  match past with
  | [] => []
  | (k, Ok _) :: r => k :: remove dec k (recent r)
  | (_, Err _) :: r => recent r
  end.

(** The answer that [k] got last. *)
Fixpoint last_answer (k : K) (past : list (K * res V)) : option V :=
  match past with
  | [] => None
  | (k', Ok v) :: r => if dec k k' then Some v else last_answer k r
  | (_, Err _) :: r => last_answer k r
  end.

(** A key among the [max] keys asked last gets the answer it got last. All others are
    computed. *)
Definition answer (max : nat) (past : list (K * res V)) (k : K) (computed : res V) : res V :=
  if in_dec dec k (firstn max (recent past))
  then match last_answer k past with Some v => Ok v | None => computed end
  else computed.

Fixpoint answers (max : nat) (past : list (K * res V)) (calls : list (K * res V)) : list (res V) :=
  match calls with
  | [] => []
  | (k, v) :: r => let a := answer max past k v in a :: answers max ((k, a) :: past) r
  end.
End Past.

(** ** Trees with the same elements and texts; attributes may differ *)
Inductive TextAlike : xml -> xml -> Prop :=
| ta_elem : forall t tx a a' ks ks', Forall2 TextAlike ks ks' -> TextAlike (Elem t tx a ks) (Elem t tx a' ks').

(** ** References *)

(** No value is a reference. *)
Definition no_refs : references := References (fun _ => false) (fun _ _ _ s => Ok s).

(** The tree with every reference written in its default form, if every one has it. [b]
    tells which tree, [p] and [ts] the place and the tags of [x]. *)
Fixpoint canon (R : references) (b : bool) (p : list nat) (ts : list string) (x : xml) {struct x} : res xml :=
  match x with
  | Elem t tx a ks =>
      let! tx' := match tx with
                  | Some s => if is_ref R ts then let! v := default R b p ts s in Ok (Some v) else Ok (Some s)
                  | None => Ok None
                  end in
      let! ks' := (fix go (i : nat) (l : list xml) : res (list xml) :=
                     match l with
                     | [] => Ok []
                     | c :: r => let! c' := canon R b (p ++ [i]) (ts ++ [xtag c]) c in
                                 let! r' := go (S i) r in Ok (c' :: r')
                     end) 0 ks in
      Ok (Elem t tx' a ks')
  end.

(** Only leafs and leaf-lists have references, and no key of a list is one. *)
Definition PlainKeys (dev : snode) (R : references) : Prop :=
  (forall ts s, is_ref R ts = true -> foldM schema_child dev ts = Ok s -> sty s = TLeaf \/ sty s = TLeafList) /\
  (forall ts s k, foldM schema_child dev ts = Ok s -> sty s = TList -> In k (s_keys (si s)) -> is_ref R (ts ++ [k]) = false).

(** ** The comparison without caches (CalcM.v, whose meaning is C01-C03) *)
Definition cmp (q : query) (s : snode) (x y : xml) : res bool :=
  match q with
  | QLe => cmp_le s x y | QLt => cmp_lt s x y | QGe => cmp_ge s x y
  | QGt => cmp_gt s x y | QEq => cmp_eq s x y | QNe => cmp_ne s x y
  end.
