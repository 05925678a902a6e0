(** C88: identityref and instance-identifier values in the comparison of whole configs. *)
From Coq Require Import String Ascii List Bool Arith Lia.
From Verif Require Import Base BaseP XmlM CalcM CacheM CacheSpec DeltaSpec DataSpec ExampleM
  TagM TagSpec RefM RefSpec RefPropsP IidSpec IidPropsP RefsM RefsSpec RefsP RefsPropsP.
Import ListNotations.
Open Scope string_scope.
Open Scope list_scope.

(** Two configs that say the same with other prefixes compare equal, if no key of a list
    is a reference. *)
Theorem C88_equal_partial : forall T dt ns dev max x y v, Unambiguous T -> Prefixes T None -> KnownTags T dt ->
  (forall b p, Nsmap (ns b p)) -> wfs dev = true -> sty dev = TRoot -> PlainKeys dev (device_refs T dt ns) ->
  Says T dt (ns true) (ns false) [] [] x y ->
  canon (device_refs T dt ns) true [] [] x = Ok v -> valid dev v = true ->
  calculator dev (device_refs T dt ns) max [(QEq, (x, y)); (QNe, (x, y)); (QLe, (x, y)); (QGe, (x, y))] =
  [Ok true; Ok false; Ok true; Ok true].
Proof. exact says_equal. Qed.
Print Assumptions C88_equal_partial.

(** Other prefixes change no answer, of whatever question, also if it is an exception. *)
Theorem C88_prefixes_partial : forall T dt ns ns' dev max qs x1 y1 x2 y2 x' y',
  Unambiguous T -> Prefixes T None -> KnownTags T dt -> (forall b p, Nsmap (ns b p) /\ Nsmap (ns' b p)) ->
  wfs dev = true -> sty dev = TRoot -> PlainKeys dev (device_refs T dt ns) ->
  Says T dt (ns true) (ns' true) [] [] x1 x2 -> Says T dt (ns false) (ns' false) [] [] y1 y2 ->
  canon (device_refs T dt ns) true [] [] x1 = Ok x' -> canon (device_refs T dt ns) false [] [] y1 = Ok y' ->
  calculator dev (device_refs T dt ns) max (map (fun q => (q, (x1, y1))) qs) =
  calculator dev (device_refs T dt ns') max (map (fun q => (q, (x2, y2))) qs).
Proof. exact prefixes_same. Qed.
Print Assumptions C88_prefixes_partial.

(** The default forms that are compared (C87_answers_partial, C87_meaning) say exactly
    what the configs say. *)
Theorem C88_form : forall T dt ns ns' b b' x y, Unambiguous T -> Prefixes T None -> KnownTags T dt ->
  (forall p, Nsmap (ns b p)) -> (forall p, Nsmap (ns' b' p)) ->
  Says T dt (ns b) (ns b) [] [] x x -> Says T dt (ns' b') (ns' b') [] [] y y ->
  ((exists v, canon (device_refs T dt ns) b [] [] x = Ok v /\ canon (device_refs T dt ns') b' [] [] y = Ok v) <->
   Says T dt (ns b) (ns' b') [] [] x y).
Proof. exact form_says. Qed.
Print Assumptions C88_form.

Example C88_case : Unambiguous ref_table /\ Prefixes ref_table None /\ KnownTags ref_table rf_type /\ (forall b p, Nsmap (rf_ns b p)) /\
  wfs rf_schema = true /\ sty rf_schema = TRoot /\ PlainKeys rf_schema (device_refs ref_table rf_type rf_ns) /\
  Says ref_table rf_type (rf_ns true) (rf_ns false) [] [] rf_x rf_y /\
  (exists v, canon (device_refs ref_table rf_type rf_ns) true [] [] rf_x = Ok v /\ valid rf_schema v = true).
Proof.
  split; [exact ref_unambiguous |]. split; [exact (proj1 ex_prefixes) |]. split; [exact rf_known |]. split; [exact rf_nsmaps |].
  split; [vm_compute; reflexivity |]. split; [reflexivity |]. split; [exact rf_plain |]. split; [exact rf_says |].
  eexists; split; vm_compute; reflexivity.
Qed.
Example C88_case_other :
  calculator rf_schema (device_refs ref_table rf_type rf_ns) maxsize [(QEq, (rf_x, rf_y))] = [Ok true] /\
  calculator rf_schema (device_refs ref_table rf_type rf_ns) maxsize [(QEq, (rf_x, rf_x))] = [Err ConfigError] /\
  calculator rf_schema no_refs maxsize [(QEq, (rf_x, rf_y))] = [Ok false].
Proof. repeat split; vm_compute; reflexivity. Qed.

(** If the key of a list is an identityref, configs that say the same compare unequal. *)
Theorem C88_keys_refuted : exists T dt ns dev x y v, Unambiguous T /\ Prefixes T None /\ KnownTags T dt /\
  (forall b p, Nsmap (ns b p)) /\
  wfs dev = true /\ sty dev = TRoot /\ Says T dt (ns true) (ns false) [] [] x y /\
  canon (device_refs T dt ns) true [] [] x = Ok v /\ valid dev v = true /\
  calculator dev (device_refs T dt ns) maxsize [(QEq, (x, y)); (QLe, (x, y)); (QGe, (x, y))] = [Ok false; Ok false; Ok false].
Proof.
  exists ref_table, rk_type, rf_ns, rf_schema, (rk_conf "ianaift:ethernetCsmacd"), (rk_conf "t:ethernetCsmacd"),
    (rk_conf "iana-if-type:ethernetCsmacd").
  split; [exact ref_unambiguous |]. split; [exact (proj1 ex_prefixes) |]. split; [exact rk_known |]. split; [exact rf_nsmaps |].
  split; [vm_compute; reflexivity |]. split; [reflexivity |]. split; [exact rk_says |].
  repeat split; vm_compute; reflexivity.
Qed.
Print Assumptions C88_keys_refuted.
