(** Property theorems: the commands of a running-config diff, given to a device. *)
From Coq Require Import String Ascii List Bool Arith.
From Verif Require Import Base RunningM RunSpec RunNestSpec RunDevSpec RunAllP RunScriptP RunReachP RunDevPropsP.
Import ListNotations.
Open Scope string_scope.
Open Scope list_scope.

(** ** C85
    The CLI of a diff, given to a device that has the first config, makes it have the
    second one: the same lines at every level, in any order. The lines are ordinary ones,
    distinct at every place and without signs, negated ones among them, and the device
    does what the code expects of it at every place of the diff. *)
Theorem C85_forth_partial : forall dv t1 t2 l1 l2 d ls, parse (map replace_line t1) = Ok l1 -> parse (map replace_line t2) = Ok l2 ->
  ordinary l1 = true -> distinct l1 -> Forall Saying l1 -> ordinary l2 = true -> distinct l2 -> Forall Saying l2 -> Settled dv l2 ->
  get_diff false t1 t2 = Ok d -> (forall m w, Place l2 d m w -> Obeys dv m w) -> get_cli false t1 t2 = Ok ls ->
  exists cs, Reads ls cs /\ forall cfg, Same cfg l1 -> Same (run dv cs cfg) l2.
Proof. exact cli_forth'. Qed.
Print Assumptions C85_forth_partial.

(** The other way: the CLI of the reversed diff takes the device back. The diff is one to
    the first config with its lines reordered, [s1]. *)
Theorem C85_back_partial : forall dv t1 t2 l1 l2 s1 s2 d ls, parse (map replace_line t1) = Ok l1 -> parse (map replace_line t2) = Ok l2 ->
  ordinary l1 = true -> distinct l1 -> Forall Saying l1 -> ordinary l2 = true -> distinct l2 -> Forall Saying l2 -> Settled dv l1 ->
  running_lists t1 t2 = Ok (s1, s2) -> get_diff true t1 t2 = Ok d -> (forall m w, Place s1 d m w -> Obeys dv m w) -> get_cli true t1 t2 = Ok ls ->
  exists cs, Reads ls cs /\ forall cfg, Same cfg l2 -> Same (run dv cs cfg) l1.
Proof. exact cli_back'. Qed.
Print Assumptions C85_back_partial.

(** A text is read in one way only, and a config is the same as itself. *)
Theorem C85_one_reading : forall ls c1 c2, Reads ls c1 -> Reads ls c2 -> c1 = c2.
Proof. exact reads_once. Qed.
Print Assumptions C85_one_reading.

(** Forth, and back again: a host name, lines below sections at two levels, added and
    removed sections, an address that is overwritten, lines in another order, and lines
    that are negated in one of the configs only. *)
Example C85_case : exists cs cs', forall cfg, Same cfg (lines_of_text dev1) ->
  get_cli false dev1 dev2 = Ok
    [ "no ip route 2.2.2.2 255.0.0.0 Null0"; "interface Gi4"; "  no shutdown"; "no interface Gi2"; "interface Gi1"; "  no mtu 1500"; "  no ip address";
      "vrf definition red"; "  address-family ipv4"; "    no route-target export 1:1"; "no hostname r1"; "!";
      "hostname r2"; "vrf definition red"; "  address-family ipv4"; "    route-target export 1:2"; "interface Gi1";
      "  shutdown"; "  description down"; "  ip address 1.1.1.2 255.0.0.0"; "interface Gi3"; "  mtu 9000";
      "interface Gi4"; "  ip address 4.4.4.4 255.0.0.0"; "ip http server"; "snmp-server contact a" ] /\
  Reads (cli_of false dev1 dev2) cs /\ Reads (cli_of true dev1 dev2) cs' /\
  Same (run ios cs cfg) (lines_of_text dev2) /\ Same (run ios cs' (run ios cs cfg)) (lines_of_text dev1).
Proof. exact ex_forth_back. Qed.

(** The order of the lines of the device does not matter, but it has to have them. *)
Example C85_case_same : Same (rev (lines_of_text dev1)) (lines_of_text dev1).
Proof. exact ex_rev_same. Qed.

(** Outside of the conditions the device ends up with another config. Of two removed
    sections only the first is taken back if its name is the beginning of the other's. *)
Theorem C85_names_refuted : exists t1 t2 cs, get_cli false t1 t2 = Ok ["no interface Gi1"] /\ Reads ["no interface Gi1"] cs /\
  In "interface Gi10" (keys (run ios cs (lines_of_text t1))) /\ keys (lines_of_text t2) = ["hostname a"].
Proof. exact ex_names. Qed.
Print Assumptions C85_names_refuted.

(** Of two addresses that are added only the last one is given to the device. *)
Theorem C85_addresses_refuted : exists t1 t2 cs, Reads (cli_of false t1 t2) cs /\
  run ios cs (lines_of_text t1) = [It "interface Gi1" (Some [It "mtu 1" None ISame; It "ip address 2.2.2.2 255.0.0.0 secondary" None ISame]) ISame] /\
  lines_of_text t2 = [It "interface Gi1" (Some [It "mtu 1" None ISame; It "ip address 1.1.1.1 255.0.0.0" None ISame; It "ip address 2.2.2.2 255.0.0.0 secondary" None ISame]) ISame].
Proof. exact ex_addresses. Qed.
Print Assumptions C85_addresses_refuted.

(** Taking one address back takes all of them. *)
Theorem C85_secondary_refuted : exists t1 t2 cs, Reads (cli_of false t1 t2) cs /\
  run ios cs (lines_of_text t1) = [It "interface Gi1" (Some [It "mtu 1" None ISame; It "no ip address" None ISame]) ISame] /\
  lines_of_text t2 = [It "interface Gi1" (Some [It "mtu 1" None ISame; It "ip address 1.1.1.1 255.0.0.0" None ISame]) ISame].
Proof. exact ex_secondary. Qed.
Print Assumptions C85_secondary_refuted.

(** If an address is added before the line "no ip address" is removed, what takes this
    line back overwrites the address: the device gets none. *)
Theorem C85_negated_refuted : exists t1 t2 cs, get_cli false t1 t2 = Ok ["interface Gi1"; "  ip address"] /\ Reads ["interface Gi1"; "  ip address"] cs /\
  run ios cs (lines_of_text t1) = [It "interface Gi1" (Some [It "mtu 1" None ISame]) ISame] /\
  lines_of_text t2 = [It "interface Gi1" (Some [It "ip address 1.1.1.1 255.0.0.0" None ISame; It "mtu 1" None ISame]) ISame].
Proof. exact ex_negated. Qed.
Print Assumptions C85_negated_refuted.
