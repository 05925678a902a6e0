(** A small device used by the examples beside the theorems: one model with leaves,
    defaults, a choice, leaf-lists, lists, a presence container, user order. *)
From Coq Require Import String Ascii List Bool Arith ZArith Lia.
From Verif Require Import Base XmlM CalcM NetconfM ConfigM DataSpec.
Import ListNotations.
Open Scope string_scope.
Open Scope list_scope.

(** Not a transcription: example data only. *)
Definition s_leaf (t : string) : snode := SNode (SInfo t TLeaf false false None false [] "" "read-write") [].
Definition s_leaf_def (t d : string) : snode := SNode (SInfo t TLeaf false false (Some d) false [] "" "read-write") [].
Definition s_key (t : string) : snode := SNode (SInfo t TLeaf false false None true [] "" "read-write") [].
Definition s_ll (t : string) (user : bool) : snode := SNode (SInfo t TLeafList false user None false [] "" "read-write") [].
Definition s_ll_def (t : string) (user : bool) (d : string) : snode :=
  SNode (SInfo t TLeafList false user (Some d) false [] "" "read-write") [].
Definition s_cont (t : string) (ks : list snode) : snode := SNode (SInfo t TContainer false false None false [] "" "read-write") ks.
Definition s_pres (t : string) (ks : list snode) : snode := SNode (SInfo t TContainer true false None false [] "" "read-write") ks.
Definition s_list (t : string) (user : bool) (keys : list string) (ks : list snode) : snode :=
  SNode (SInfo t TList false user None false keys "" "read-write") ks.
Definition s_choice (t : string) (ks : list snode) : snode := SNode (SInfo t TChoice false false None false [] "" "read-write") ks.
Definition s_case (t : string) (ks : list snode) : snode := SNode (SInfo t TCase false false None false [] "" "read-write") ks.
Definition s_root (ks : list snode) : snode := SNode (SInfo "" TRoot false false None false [] "" "") ks.

Definition e_leaf (t v : string) : xml := Elem t (Some v) [] [].
Definition e_node (t : string) (ks : list xml) : xml := Elem t None [] ks.
Definition e_config (ks : list xml) : xml := Elem config_tag None [] ks.

Definition ex_schema : snode :=
  s_root
    [ s_cont "sys"
        [ s_leaf "host"; s_leaf_def "mtu" "1500";
          s_choice "transport" [ s_case "tcp" [ s_leaf "tcp-port" ];
                                 s_case "udp" [ s_leaf "udp-port"; s_leaf "udp-opt" ] ];
          s_ll "dns" true; s_ll_def "ntp" false "a,b";
          s_list "user" false ["name"] [ s_key "name"; s_leaf "role"; s_pres "admin" [ s_leaf "level" ] ];
          s_list "rule" true ["id"] [ s_key "id"; s_leaf "action"; s_cont "log" [ s_leaf "to" ] ] ];
      s_leaf "banner"; s_ll "label" false ].

Definition ex_user (n r : string) := e_node "user" [ e_leaf "name" n; e_leaf "role" r ].
Definition ex_rule (n r : string) := e_node "rule" [ e_leaf "id" n; e_leaf "action" r ].

Definition ex_a : xml :=
  e_config
    [ e_node "sys"
        [ e_leaf "host" "r1"; e_leaf "tcp-port" "22";
          e_leaf "dns" "8.8.8.8"; e_leaf "dns" "1.1.1.1"; e_leaf "ntp" "n1";
          ex_user "ann" "op"; ex_user "bob" "op";
          ex_rule "10" "permit"; ex_rule "20" "deny" ];
      e_leaf "label" "x" ].

Definition ex_b : xml :=
  e_config
    [ e_node "sys"
        [ e_leaf "host" "r2"; e_leaf "mtu" "9000"; e_leaf "tcp-port" "22";
          e_leaf "dns" "9.9.9.9"; e_leaf "dns" "8.8.8.8"; e_leaf "dns" "1.1.1.1";
          e_leaf "ntp" "n2";
          ex_user "bob" "admin"; ex_user "eve" "op";
          ex_rule "5" "deny"; ex_rule "10" "permit"; ex_rule "15" "permit" ];
      e_leaf "label" "x"; e_leaf "banner" "hello" ].

(** [ex_a] with the order of unordered siblings changed *)
Definition ex_a' : xml :=
  e_config
    [ e_leaf "label" "x";
      e_node "sys"
        [ ex_user "bob" "op"; e_leaf "ntp" "n1"; ex_rule "10" "permit";
          e_leaf "dns" "8.8.8.8"; ex_rule "20" "deny"; e_leaf "dns" "1.1.1.1";
          ex_user "ann" "op"; e_leaf "tcp-port" "22"; e_leaf "host" "r1" ] ].
