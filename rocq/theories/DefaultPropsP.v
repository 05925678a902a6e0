(** Example data and lemmas for C92. *)
From Coq Require Import String List Bool Arith ZArith Lia Sorted.
From Verif Require Import Base XmlM CalcM NetconfM ConfigM DataSpec DeltaSpec ConfigSpec EditSpec EditP DefaultSpec DataP DefaultP CreateP ExampleM.
Import ListNotations.
Open Scope string_scope.
Open Scope list_scope.

Theorem containers_merged : forall o s a b d, IsConfig s a -> IsConfig s b -> delta_nc s (Delta a b o) = Ok d ->
  forall p s' n, At s d p s' n -> p <> [] -> get_attr operation_tag n = Some "create" -> ~ NonPresence s'.
Proof.
  intros o s a b d Ca Cb H p s' n A NE O X. apply np_iff in X. rewrite (no_container_created o s a b d Ca Cb H p s' n A NE O) in X. discriminate.
Qed.

(** Not a transcription: a device with defaults *)
Definition df_choice : snode :=
  SNode (SInfo "transport" TChoice false false (Some "udp") false [] "" "read-write")
    [ s_case "tcp" [ s_leaf_def "tcp-port" "22" ]; s_case "udp" [ s_leaf_def "udp-port" "69"; s_leaf "udp-opt" ] ].
Definition df_sys : snode :=
  s_cont "sys" [ s_leaf "host"; s_leaf_def "mtu" "1500"; df_choice; s_cont "log" [ s_leaf_def "level" "5"; s_leaf "file" ];
                 s_pres "admin" [ s_leaf_def "shell" "sh" ]; s_ll_def "ntp" false "a" ].
Definition df_data : xml :=
  e_node "sys" [ e_leaf "host" "r1"; e_leaf "mtu" "9000"; e_leaf "tcp-port" "23"; e_node "log" [ e_leaf "level" "1"; e_leaf "file" "f" ];
                 e_node "admin" [ e_leaf "shell" "zsh" ]; e_leaf "ntp" "b" ].
Definition df_ops : opts := Opts PCCreate PRMerge PDDelete DMinimum 0.
Definition df_log : xml := e_config [ e_node "sys" [ e_leaf "host" "r1" ] ].
Definition df_log' : xml := e_config [ e_node "sys" [ e_leaf "host" "r1"; e_leaf "mtu" "9000" ] ].
Definition df_root : snode := s_root [ df_sys ].
