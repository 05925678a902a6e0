(** Example configs on which deltas are tried. *)
From Coq Require Import String Ascii List Bool Arith ZArith Lia.
From Verif Require Import Base XmlM CalcM NetconfM ConfigM DataSpec ExampleM.
Import ListNotations.
Open Scope string_scope.
Open Scope list_scope.

(** Three rules and their reversal *)
Definition ex_abc : xml := e_config [ e_node "sys" [ ex_rule "1" "permit"; ex_rule "2" "permit"; ex_rule "3" "deny" ] ].
Definition ex_cba : xml := e_config [ e_node "sys" [ ex_rule "3" "deny"; ex_rule "2" "permit"; ex_rule "1" "permit" ] ].
(** More orders *)
Definition ex_cbxa : xml := e_config [ e_node "sys" [ ex_rule "3" "deny"; ex_rule "9" "permit"; ex_rule "1" "permit"; ex_rule "2" "permit" ] ].
Definition ex_ba : xml := e_config [ e_node "sys" [ ex_rule "2" "permit"; ex_rule "1" "permit" ] ].
Definition ex_ab : xml := e_config [ e_node "sys" [ ex_rule "1" "permit"; ex_rule "2" "permit" ] ].
Definition ex_abx : xml := e_config [ e_node "sys" [ ex_rule "1" "permit"; ex_rule "2" "permit"; ex_rule "9" "permit" ] ].
(** The two cases of a choice *)
Definition ex_tcp : xml := e_config [ e_node "sys" [ e_leaf "host" "r1"; e_leaf "tcp-port" "22" ] ].
Definition ex_udp : xml := e_config [ e_node "sys" [ e_leaf "host" "r1"; e_leaf "udp-port" "69" ] ].
(** A key with an apostrophe in a user-ordered list *)
Definition ex_quote : xml := e_config [ e_node "sys" [ ex_rule "it's" "permit"; ex_rule "2" "permit" ] ].
(** The same at the top *)
Definition ex_top : snode := s_root [ s_list "rule" true ["id"] [ s_key "id"; s_leaf "action" ]; s_ll "dns" true ].
Definition ex_top_quote : xml := e_config [ ex_rule "it's" "permit"; ex_rule "2" "permit" ].
Definition ex_top_empty : xml := e_config [ Elem "dns" None [] []; e_leaf "dns" "8.8.8.8" ].
(** Leaf-lists below the top *)
Definition ex_lab1 : xml := e_config [ e_leaf "label" "x"; e_leaf "label" "y" ].
Definition ex_lab2 : xml := e_config [ e_leaf "label" "x" ].
