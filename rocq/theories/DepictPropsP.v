(** Example data for C68. *)
From Coq Require Import String Ascii List Bool Arith.
From Verif Require Import Base BaseP XmlM TagM TagSpec TagP DepictM DepictSpec DepictP.
Import ListNotations.
Open Scope string_scope.
Open Scope list_scope.

Definition y0 (k a m : string) : yinfo :=
  YInfo (Kw k) a m (Some true) None [] None None None None [] false None [] [] None.
Definition y_ro (i : yinfo) : yinfo :=
  YInfo (y_kw i) (y_arg i) (y_module i) (Some false) (y_status i) (y_defaults i) (y_key i) (y_ordered i) (y_presence i)
    (y_mandatory i) (y_cases i) (y_is_key i) (y_type i) (y_ext i) (y_features i) (y_augment i).
Definition y_nc (i : yinfo) : yinfo :=
  YInfo (y_kw i) (y_arg i) (y_module i) None (y_status i) (y_defaults i) (y_key i) (y_ordered i) (y_presence i)
    (y_mandatory i) (y_cases i) (y_is_key i) (y_type i) (y_ext i) (y_features i) (y_augment i).
Definition y_keyleaf (a m : string) : ystmt :=
  YStmt (YInfo (Kw "leaf") a m (Some true) None [] None None None None [] true (Some ("string", "", None)) [] [] None) [].
Definition y_list (key : option string) (a m : string) (ks : list ystmt) : ystmt :=
  YStmt (YInfo (Kw "list") a m (Some true) (Some "deprecated") [] key (Some "user") None None [] false None [] [] None) ks.
Definition dp_ns : list (string * string) := [("m", "urn:m"); ("aug", "urn:aug"); ("tailf-common", "urn:tailf")].
Definition dp_data : ystmt :=
  YStmt (YInfo (Kw "container") "top" "m" (Some true) None [] None None (Some "on") None [] false None
           [(KwExt "tailf-common" "info", Some "text")] ["f1"] (Some ["f1"; "f2"]))
    [y_list (Some "a  m:b ") "l" "m" [y_keyleaf "a" "m"; y_keyleaf "b" "m"; YStmt (y_ro (y0 "leaf" "s" "aug")) []];
     YStmt (y0 "choice" "h" "m") [YStmt (y0 "case" "k" "m") [YStmt (y0 "leaf-list" "ll" "m") []]]].
Definition dp_rpc : ystmt :=
  YStmt (y_nc (y0 "rpc" "reset" "m"))
    [YStmt (y_nc (y0 "input" "input" "m")) [YStmt (y_nc (y0 "leaf" "delay" "m")) []];
     YStmt (y_nc (y0 "output" "output" "m")) [YStmt (y_nc (y0 "leaf" "done" "m")) []]].
Definition dp_note : ystmt := YStmt (y_nc (y0 "notification" "event" "m")) [YStmt (y_nc (y0 "leaf" "at" "m")) []].
Definition dp_kids : list ystmt := [dp_note; dp_data; dp_rpc].

Ltac ident := split; [discriminate |]; intros c Hc;
  cbn in Hc; repeat (destruct Hc as [<- | Hc]; [cbn; intuition discriminate |]); contradiction.
Lemma word_m : Word "urn:m". Proof. split; [discriminate |]. cbn. intuition discriminate. Qed.
Lemma word_aug : Word "urn:aug". Proof. split; [discriminate |]. cbn. intuition discriminate. Qed.
Ltac namedm := first
  [ eapply named with (u := "urn:m"); [reflexivity | reflexivity | exact word_m | ident |]
  | eapply named with (u := "urn:aug"); [reflexivity | reflexivity | exact word_aug | ident |]];
  repeat (first [apply Forall_nil | apply Forall_cons; [namedm |]]).
Lemma dp_Named : Forall (Named dp_ns) dp_kids.
Proof. repeat (first [apply Forall_nil | apply Forall_cons; [namedm |]]). Qed.
Ltac dataonly := apply data_only; [cbn; intuition discriminate |]; repeat (first [apply Forall_nil | apply Forall_cons; [dataonly |]]).
Lemma dp_data_only : forall t, In t dp_kids -> is_data t = true -> DataOnly t.
Proof.
  intros t [<- | [<- | [<- | []]]] H; [discriminate | clear H | discriminate]. dataonly.
Qed.
Lemma dp_Flat : forall t, In t dp_kids -> Flat t.
Proof.
  intros t [<- | [<- | [<- | []]]]; unfold Flat; repeat (first [apply Forall_nil | apply Forall_cons; [dataonly |]]).
Qed.
Lemma dp_InOut : forall t, In t dp_kids -> InOut t.
Proof.
  intros t [<- | [<- | [<- | []]]] H; try discriminate. intros c [<- | [<- | []]]; [left | right]; reflexivity.
Qed.

(** An action in a container, YANG 1.1 *)
Definition dp_action : ystmt :=
  YStmt (y0 "container" "server" "m")
    [YStmt (y_nc (y0 "action" "reset" "m")) [YStmt (y_nc (y0 "input" "input" "m")) [YStmt (y_nc (y0 "leaf" "at" "m")) []]]].
Lemma Mirror_inv : forall ns chain i ks s k, Mirror ns chain (YStmt i ks) s -> y_kw i = Kw k ->
  s_access (si s) = allowed (chain ++ [k]) (match y_config i with Some b => b | None => false end) /\
  Forall2 (Mirror ns (chain ++ [k])) ks (skids s).
Proof. intros ns chain i ks s k H E. inversion H as [c1 k1 i1 ks1 s1 u1 K1 K2 K3 K4 K5 K6 K7 K8 K9 K10 K11 K12 K13]; subst.
  assert (k1 = k) by congruence. subst k1. auto. Qed.
Lemma action_no_mirror : exists ns t x, Named ns t /\ is_data t = true /\ compile_nodes ns [t] = Ok [x] /\ ~ Mirror ns [] t (read_node x).
Proof.
  exists dp_ns, dp_action. eexists. split; [namedm |]. split; [reflexivity |]. split; [reflexivity |].
  intros H. destruct (Mirror_inv _ _ _ _ _ _ H eq_refl) as (_ & F).
  inversion F as [| ? ? ? ? F1 _]; subst. destruct (Mirror_inv _ _ _ _ _ _ F1 eq_refl) as (A & _). cbn in A. discriminate.
Qed.

(** A line break between two keys: RFC 7950 section 14 allows it. *)
Definition dp_lines : ystmt :=
  y_list (Some ("a" ++ String newline "" ++ "b")%string) "l" "m" [y_keyleaf "a" "m"; y_keyleaf "b" "m"].
Lemma lines_no_keys : exists ns t x a b, Named ns t /\ is_kw "list" t = true /\ y_key (yi t) = Some (a ++ String newline "" ++ b)%string /\
  Identifier a /\ Identifier b /\ (exists c, In c (ykids t) /\ y_arg (yi c) = a) /\ (exists c, In c (ykids t) /\ y_arg (yi c) = b) /\
  compile_nodes ns [t] = Ok [x] /\ s_keys (si (read_node x)) = [].
Proof.
  exists dp_ns, dp_lines. eexists. exists "a", "b". split; [namedm |]. split; [reflexivity |]. split; [reflexivity |].
  split; [ident |]. split; [ident |]. split; [exists (y_keyleaf "a" "m"); split; [left |]; reflexivity |].
  split; [exists (y_keyleaf "b" "m"); split; [right; left |]; reflexivity |]. split; reflexivity.
Qed.

(** An extension as a data node, such as tailf:action *)
Lemma extension_raises : forall ns m i ks u a b, assoc String.eqb (y_module i) ns = Some u -> y_kw i = KwExt a b ->
  depict ns m (YStmt i ks) = Err TypeError.
Proof. intros ns m i ks u a b Hu Hk. rewrite depict_eq, Hu, Hk. reflexivity. Qed.
Definition dp_tailf : ystmt :=
  YStmt (y0 "container" "server" "m") [YStmt (YInfo (KwExt "tailf-common" "action") "ping" "m" None None [] None None None None [] false None [] [] None) []].
