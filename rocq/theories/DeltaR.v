(** The relation between two configs and a delta on which the proofs about
    node_sub, get_config_replace and node_add rest. *)
From Coq Require Import String Ascii List Bool Arith ZArith Lia Permutation.
From Verif Require Import Base BaseP XmlM CalcM CalcP NetconfM DataSpec DataP DeltaSpec.
Import ListNotations.
Open Scope string_scope.
Open Scope list_scope.

Definition Same (s : snode) (x y : xml) : Prop := node_le s x y = Ok true /\ node_le s y x = Ok true.

(** A copy without any of the four edit attributes. *)
Definition no_edit (x : xml) : Prop :=
  get_attr operation_tag x = None /\ get_attr insert_tag x = None /\
  get_attr value_tag x = None /\ get_attr key_tag x = None.
Inductive Bare : xml -> xml -> Prop :=
| bare : forall x y, xtag x = xtag y -> xtext x = xtext y -> no_edit x ->
    Forall2 Bare (xkids x) (xkids y) -> Bare x y.
Definition Body (cd cb : xml) : Prop := xtext cd = xtext cb /\ Forall2 Bare (xkids cd) (xkids cb).

(** The deletion of [ca] is left to the server: a node of another case of the same
    choice is in the destination only. *)
Definition Suppressed (s : snode) (la lb : list ent) (ca : xml) : Prop :=
  exists v cb ea eb, In (v, cb) lb /\ ~ In v (uids la) /\
    schema_entry s (xtag ca) = Ok ea /\ schema_entry s (xtag cb) = Ok eb /\
    ce_case ea = true /\ ce_case eb = true /\
    choice_pos ea = choice_pos eb /\ case_pos ea <> case_pos eb.

(** Text of the key attribute *)
Fixpoint pstr (keys : list string) (vals : list string) : string :=
  match keys, vals with
  | k :: ks, v :: vs => ("[" ++ k ++ "='" ++ v ++ "']" ++ pstr ks vs)%string
  | _, _ => ""
  end.

(** The attributes of an entry whose predecessor has identity [prev] *)
Definition InsAttr (cs : snode) (prev : option uid) (cd : xml) : Prop :=
  match prev with
  | None => get_attr insert_tag cd = Some "first"
  | Some v =>
      get_attr insert_tag cd = Some "after" /\
      match sty cs with
      | TLeafList => forall tx, snd v = KText (Some tx) -> get_attr value_tag cd = Some tx
      | _ => forall vs, snd v = KTup (map Some vs) -> get_attr key_tag cd = Some (pstr (s_keys (si cs)) vs)
      end
  end.
(** Leaf-list entries with text, and identities that the attributes can name *)
Definition TxtU (cs : snode) (u : uid) : Prop :=
  match sty cs with
  | TLeafList => exists tx, snd u = KText (Some tx)
  | _ => True
  end.
Definition NamU (cs : snode) (u : uid) : Prop :=
  match sty cs with
  | TLeafList => exists tx, snd u = KText (Some tx)
  | _ => exists vs, snd u = KTup (map Some vs) /\ Forall (fun x => has_char "'" x = false) vs
  end.
Fixpoint Chain (cs : snode) (prev : option uid) (l : list ent) : Prop :=
  match l with
  | [] => True
  | e :: r => InsAttr cs prev (snd e) /\ Chain cs (Some (fst e)) r
  end.

(** Entries of the delta with tag [t] that are in the destination *)
Definition dseq (t : string) (lb ld : list ent) : list ent :=
  filter (fun e => String.eqb (fst (fst e)) t && mem uid_eqb (fst e) (uids lb)) ld.

Inductive OrderOK (t : string) (cs : snode) (la lb ld : list ent) : Prop :=
| ord_chain : map fst (dseq t lb ld) = seqt t lb -> Chain cs None (dseq t lb ld) -> OrderOK t cs la lb ld
| ord_plain : seqt t la = [] -> map fst (dseq t lb ld) = seqt t lb ->
    Forall (fun e => get_attr insert_tag (snd e) = None) (dseq t lb ld) -> OrderOK t cs la lb ld
| ord_same : seqt t ld = [] -> seqt t la = seqt t lb -> OrderOK t cs la lb ld.

Definition leafish (t : stype) : bool := match t with TLeaf | TLeafList => true | _ => false end.
Definition nodeish (t : stype) : bool := match t with TContainer | TList => true | _ => false end.

(** Conditions on a delta, all at a depth, the root of a config being at depth 0: on the
    nodes [ca] of the source that are deleted by operation [o], the children of the source
    and the destination being [la] and [lb] and their parents at depth [n]; on deletions that
    are left to the server below nodes at depth [n]; on nodes of both at depth [n] that are
    replaced, and on those that are merged, given the children of the source and of the
    destination. [lk_walk]: containers may be deleted by deleting what they contain, by the
    operation delete. *)
Class late := Late { lk : nat -> snode -> list ent -> list ent -> xml -> operation -> Prop;
                     lk_walk : Prop;
                     lk_merge : forall n s la lb ca, lk n s la lb ca OpMerge -> lk_walk;
                     lk_nil : forall n s la ca o, lk_walk -> o <> OpRemove -> lk n s la [] ca o;
                     lk_stay : nat -> Prop;
                     lk_repl : nat -> snode -> list xml -> list xml -> Prop;
                     lk_deep : nat -> snode -> list xml -> list xml -> Prop }.
Definition any_late : late :=
  Late (fun _ _ _ _ _ _ => True) True (fun _ _ _ _ _ _ => I) (fun _ _ _ _ _ _ _ => I) (fun _ => True) (fun _ _ _ _ => True) (fun _ _ _ _ => True).

Section Late.
Context {LK : late}.

Inductive IsD : nat -> snode -> list xml -> list xml -> list xml -> Prop :=
| isd : forall n s ka kb kd la lb ld,
    Index s ka la -> Index s kb lb -> Index s kd ld ->
    (forall u, EntD n s la lb (assoc uid_eqb u la) (assoc uid_eqb u lb) (assoc uid_eqb u ld)) ->
    (forall t cs, schema_child s t = Ok cs -> is_user_seq cs = true -> OrderOK t cs la lb ld) ->
    IsD n s ka kb kd
with EntD : nat -> snode -> list ent -> list ent -> option xml -> option xml -> option xml -> Prop :=
| e_none : forall n s la lb, EntD n s la lb None None None
| e_same : forall n s la lb ca cb cs, schema_child s (xtag ca) = Ok cs -> Same cs ca cb ->
    EntD n s la lb (Some ca) (Some cb) None
| e_supp : forall n s la lb ca, lk_stay n -> Suppressed s la lb ca -> EntD n s la lb (Some ca) None None
| e_put : forall n s la lb cb cd cs, schema_child s (xtag cb) = Ok cs ->
    op_of cd = OpCreate \/ op_of cd = OpReplace \/ (op_of cd = OpMerge /\ leafish (sty cs) = true) ->
    Body cd cb -> EntD n s la lb None (Some cb) (Some cd)
| e_new_cont : forall n s la lb cb cd cs, schema_child s (xtag cb) = Ok cs -> sty cs = TContainer ->
    op_of cd = OpMerge -> IsD (S n) cs [] (xkids cb) (xkids cd) -> EntD n s la lb None (Some cb) (Some cd)
| e_new_list : forall n s la lb cb cd cs ks, schema_child s (xtag cb) = Ok cs -> sty cs = TList ->
    op_of cd = OpMerge -> key_copies cs cd = Ok ks -> IsD (S n) cs ks (xkids cb) (xkids cd) ->
    EntD n s la lb None (Some cb) (Some cd)
| e_del : forall n s la lb ca cd cs, schema_child s (xtag ca) = Ok cs ->
    op_of cd = OpDelete \/ op_of cd = OpRemove -> lk n s la lb ca (op_of cd) ->
    (forall k, In k (xkids cd) -> xkids k = [] /\ no_edit k) ->
    (forall k, In k (xkids cd) -> sty cs = TList /\ In (xtag k) (s_keys (si cs))) ->
    EntD n s la lb (Some ca) None (Some cd)
| e_del_cont : forall n s la lb ca cd cs, schema_child s (xtag ca) = Ok cs -> np_container cs = true ->
    op_of cd = OpMerge -> lk n s la lb ca OpMerge -> IsD (S n) cs (xkids ca) [] (xkids cd) -> EntD n s la lb (Some ca) None (Some cd)
| e_leaf : forall n s la lb ca cb cd cs, schema_child s (xtag ca) = Ok cs -> leafish (sty cs) = true ->
    op_of cd = OpMerge \/ op_of cd = OpReplace -> Body cd cb ->
    EntD n s la lb (Some ca) (Some cb) (Some cd)
| e_repl : forall n s la lb ca cb cd cs, schema_child s (xtag ca) = Ok cs -> nodeish (sty cs) = true ->
    op_of cd = OpReplace -> Body cd cb -> lk_repl (S n) cs (xkids ca) (xkids cb) -> EntD n s la lb (Some ca) (Some cb) (Some cd)
| e_deep : forall n s la lb ca cb cd cs, schema_child s (xtag ca) = Ok cs -> nodeish (sty cs) = true ->
    op_of cd = OpMerge -> lk_deep (S n) cs (xkids ca) (xkids cb) \/ Same cs ca cb ->
    IsD (S n) cs (xkids ca) (xkids cb) (xkids cd) -> EntD n s la lb (Some ca) (Some cb) (Some cd).

Scheme IsD_mut := Minimality for IsD Sort Prop
  with EntD_mut := Minimality for EntD Sort Prop.
Combined Scheme IsD_EntD_ind from IsD_mut, EntD_mut.
End Late.
