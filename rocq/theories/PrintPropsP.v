(** Example data for C69 and C70. *)
From Coq Require Import String Ascii List Bool Arith.
From Verif Require Import Base BaseP XmlM TagM TagSpec TagP MDiffM MDiffSpec XPathM DepictM DepictSpec DepictP DepictPropsP
  PrintM PrintSpec PrintP PrintReadP PrintTotP.
Import ListNotations.
Open Scope string_scope.
Open Scope list_scope.

Definition pr_l : list (string * string) := [("m", "urn:m"); ("x", "urn:aug"); ("tailf", "urn:tailf")].
Definition pr_m : model :=
  Model "m" pr_l "urn:m" [("urn:m", "m"); ("urn:aug", "x"); ("urn:tailf", "tailf")].
Lemma pr_init : model_init "m" pr_l = Ok pr_m.
Proof. reflexivity. Qed.
Ltac known := split; [repeat constructor; cbn; intuition discriminate |]; split; [repeat constructor; cbn; intuition discriminate |];
  intros p u I; cbn in I; repeat (destruct I as [I | I]; [injection I as <- <-; split; [ident | split; [discriminate |]; cbn; intuition discriminate] |]);
  contradiction.
Lemma pr_Known : Known pr_l.
Proof. known. Qed.
Lemma pr_urls : forall md u, assoc String.eqb md dp_ns = Some u -> exists p, In (p, u) pr_l.
Proof.
  intros md u H. cbn in H. repeat (destruct (String.eqb md _); [injection H as <-; cbn; eauto 6 |]). discriminate.
Qed.
Definition pr_tree : xml := Elem "m" None [] (match compile_nodes dp_ns dp_kids with Ok xs => xs | Err _ => [] end).
Definition nl (s : string) : string := String newline s.
Definition pr_text : string := String.concat (nl "")
  ["module: m";
   "    +--rw top {f1 f2}?";
   "       +--rw l* [a  m:b ]";
   "       |  +--rw a        string";
   "       |  +--rw b        string";
   "       |  +--ro x:s?";
   "       +--rw (h)?";
   "          +--:(k)";
   "             +--rw ll*";
   "";
   "  rpcs:";
   "    +---x reset";
   "       +---w input";
   "       |  +---w delay?";
   "       +--ro output";
   "          +--ro done?";
   "";
   "  notifications:";
   "    +---n event";
   "       +--ro at?"].
Lemma pr_prints : print_model pr_m pr_tree = Ok pr_text.
Proof. vm_compute. reflexivity. Qed.

Ltac display := split; [discriminate |]; let c := fresh in let H := fresh in intros c H; cbn in H;
  repeat (destruct H as [<- | H]; [cbn; intuition discriminate |]); contradiction.
Ltac clearn := split; [ident | display].
Ltac nochar := unfold NoLines; cbn; intuition discriminate.
Ltac sattr := let k := fresh in let H := fresh in intros k H; vm_compute in H; first [discriminate | injection H as <-].
Ltac printable := first
  [ eapply printable with (p := "m") (u := "urn:m"); [left; reflexivity | | | vm_compute; reflexivity | vm_compute; reflexivity | ..]
  | eapply printable with (p := "x") (u := "urn:aug"); [right; left; reflexivity | | | vm_compute; reflexivity | vm_compute; reflexivity | ..]];
  [clearn | clearn | nochar | discriminate | nochar
  | sattr; split; nochar
  | sattr; (split; [nochar |]; split; [nochar |]; eexists; eexists; split; [reflexivity | discriminate])
  | sattr; nochar | ].
Ltac printables := repeat (first [apply Forall_nil | apply Forall_cons; [printable; cbn [xkids]; printables |]]).
Definition pr_kids : list xml := Eval vm_compute in xkids pr_tree.
Lemma pr_Printable : Forall (Printable pr_l) (xkids pr_tree).
Proof. change (xkids pr_tree) with pr_kids. unfold pr_kids. printables. Qed.
Lemma pr_no_other : forall x, In x (xkids pr_tree) -> get_attr "type" x <> Some "other".
Proof. intros x [<- | [<- | [<- | []]]]; discriminate. Qed.

(** A prefix with a dot strips another one. *)
Definition dot_l : list (string * string) := [("a.b", "urn:1"); ("axb", "urn:2")].
Definition dot_tree (u : string) : xml := Elem "mod" None [] [Elem (etree u "n") None [("type", "leaf"); ("access", "read-write"); ("mandatory", "true")] []].
Lemma dot_Known : Known dot_l.
Proof. known. Qed.
Ltac printable2 := [> clearn | clearn | nochar | discriminate | nochar
  | sattr; split; nochar
  | sattr; (split; [nochar |]; split; [nochar |]; eexists; eexists; split; [reflexivity | discriminate])
  | sattr; nochar | constructor ].
Lemma Alike_tag : forall x y, Alike x y -> xtag x = xtag y.
Proof. intros x y H. destruct H. assumption. Qed.

Lemma dot_same : exists prefix l m t1 t2 text u0, Known l /\ model_init prefix l = Ok m /\ In (prefix, u0) l /\
  Forall (Printable l) (xkids t1) /\ Forall (Printable l) (xkids t2) /\
  print_model m t1 = Ok text /\ print_model m t2 = Ok text /\ ~ Forall2 Alike (xkids t1) (xkids t2).
Proof.
  exists "a.b", dot_l. eexists. exists (dot_tree "urn:1"), (dot_tree "urn:2"). eexists. exists "urn:1".
  split; [exact dot_Known |]. split; [reflexivity |]. split; [left; reflexivity |].
  split. { constructor; [| constructor]. eapply printable with (p := "a.b") (u := "urn:1"); [left; reflexivity | | | vm_compute; reflexivity | vm_compute; reflexivity | ..]; printable2. }
  split. { constructor; [| constructor]. eapply printable with (p := "axb") (u := "urn:2"); [right; left; reflexivity | | | vm_compute; reflexivity | vm_compute; reflexivity | ..]; printable2. }
  split; [vm_compute; reflexivity |]. split; [vm_compute; reflexivity |].
  intro H. inversion H as [| ? ? ? ? A _]; subst. apply Alike_tag in A. discriminate.
Qed.
Lemma dot_back : exists prefix l m u0 p u n d, Known l /\ model_init prefix l = Ok m /\ In (prefix, u0) l /\ In (p, u) l /\ Identifier n /\
  url_to_prefix m (etree u n) = Ok d /\ prefix_to_url m (remove_model_prefix m d) <> Ok (etree u n).
Proof.
  exists "a.b", dot_l. eexists. exists "urn:1", "axb", "urn:2", "n". eexists. split; [exact dot_Known |]. split; [reflexivity |].
  split; [left; reflexivity |]. split; [right; left; reflexivity |]. split; [ident |]. split; [vm_compute; reflexivity |].
  vm_compute. discriminate.
Qed.
(** Two modules with the same prefix: the nodes of one have no name. *)
Lemma twice_raises : exists prefix l m t u, model_init prefix l = Ok m /\ In (prefix, u) l /\
  (forall p y, At t p y -> NamedNode l y) /\ m_url m <> u /\ print_model m t = Err KeyError.
Proof.
  exists "p", [("p", "urn:1"); ("p", "urn:2")]. eexists.
  exists (Elem "mod" None [] [Elem (etree "urn:1" "n") None [("type", "leaf")] []]), "urn:1".
  split; [reflexivity |]. split; [left; reflexivity |]. split.
  - intros p y A. inversion A as [? c I | ? c q ? I B]; subst; destruct I as [<- | []].
    + exists "p", "urn:1", "n", "leaf". split; [left; reflexivity |]. split; [ident |]. split; reflexivity.
    + inversion B as [? c I | ? c ? ? I ?]; subst; destruct I.
  - split; [discriminate | vm_compute; reflexivity].
Qed.

(** A comparison: [x:s] is gone, [more] is new. *)
Definition pr_leaf (u n : string) (a : list (string * string)) : xml := Elem (etree u n) None (("type", "leaf") :: ("access", "read-write") :: a) [].
Definition pr_box (n : string) (ks : list xml) : xml := Elem (etree "urn:m" n) None [("type", "container"); ("access", "read-write")] ks.
Definition pr_old : xml := Elem "m" None [] [pr_box "top" [pr_leaf "urn:m" "a" [("datatype", "string")]; pr_leaf "urn:aug" "s" []]].
Definition pr_new : xml := Elem "m" None [] [pr_box "top" [pr_leaf "urn:m" "a" [("datatype", "uint8")]]; pr_box "more" [pr_leaf "urn:m" "z" []]].
Definition pr_diff_text : string := String.concat (nl "")
  ["module: m";
   "    +--rw top";
   "    |  +--rw a?       modified";
   "    |  +--rw x:s?     deleted";
   "    +--rw more     added";
   "       +--rw z?    added"].
Ltac nnode := first [exists "m", "urn:m"; eexists; eexists; split; [cbn; tauto |]; split; [| split; [reflexivity | reflexivity]]
                    | exists "x", "urn:aug"; eexists; eexists; split; [cbn; tauto |]; split; [| split; [reflexivity | reflexivity]]]; ident.
Ltac ats := match goal with
  | A : At _ _ _ |- _ => inversion A as [? ? I | ? ? ? ? I ?]; subst; clear A; cbn in I; repeat (destruct I as [<- | I]); try contradiction; try nnode; ats
  | _ => idtac end.
Lemma pr_old_named : forall p y, At pr_old p y -> NamedNode pr_l y.
Proof. intros p y A. ats. Qed.
Lemma pr_new_named : forall p y, At pr_new p y -> NamedNode pr_l y.
Proof. intros p y A. ats. Qed.
