(** Property C81: the parser of YANG statements. *)
From Coq Require Import String List Bool Arith.
From Verif Require Import ParseM ParseSpec ParseP ParsePlaceP ParsePropsP.
Import ListNotations.
Open Scope string_scope.
Open Scope list_scope.
Open Scope nat_scope.

(** A tree is read and the rest is left exactly if a beginning of the text spells the tree. *)
Theorem C81_grammar : forall ident keep toks t rest,
  (exists s st, read ident keep toks = POk (s, st) /\ shape s = t /\ p_toks st = rest) <->
  (exists w, toks = w ++ rest /\ SpellsTop ident keep t (map t_tok w)).
Proof. exact read_iff. Qed.
Print Assumptions C81_grammar.

Example C81_case : SpellsTop pa_ident false pa_tree (map t_tok pa_text).
Proof. exact pa_spelled. Qed.

(** No text can be read in two ways. *)
Theorem C81_unambiguous : forall ident keep toks t t' w w' r r', toks = w ++ r -> toks = w' ++ r' ->
  SpellsTop ident keep t (map t_tok w) -> SpellsTop ident keep t' (map t_tok w') -> t = t' /\ w = w'.
Proof. exact unambiguous. Qed.
Print Assumptions C81_unambiguous.

(** The parser ends: the fuel of the model is enough for every text. *)
Theorem C81_ends : forall ident keep toks, read ident keep toks <> PErr Fuel.
Proof. exact read_fuel. Qed.
Print Assumptions C81_ends.

(** Statements are nested as their places are, and each below the top is where its keyword and
    its semicolon or closing brace are. For comments that are not kept, as in this package. *)
Theorem C81_places_partial : forall ident toks s st, read ident false toks = POk (s, st) -> Forward (0, 0) toks ->
  Nested s /\ firstp s = (0, 0) /\ lastp s = p_at st /\ forall c d, In c (kidsp s) -> Within c d -> Spot toks d.
Proof. exact read_places. Qed.
Print Assumptions C81_places_partial.

Example C81_places_case : Forward (0, 0) pa_text /\
  exists s st, read pa_ident false pa_text = POk (s, st) /\ shape s = pa_tree /\ p_toks st = [] /\ p_1_1 st = true.
Proof. split; [exact pa_forward | exact pa_reads]. Qed.

(** With kept comments a comment may end before it begins. *)
Theorem C81_places_refuted : exists ident toks s st d, Forward (0, 0) toks /\ read ident true toks = POk (s, st) /\ Within s d /\ ~ ple (firstp d) (lastp d).
Proof. exact comment_before. Qed.
Print Assumptions C81_places_refuted.

(** The tokenizer is told of YANG 1.1 exactly if a statement says so. *)
Theorem C81_version : forall ident keep toks s st, read ident keep toks = POk (s, st) -> (p_1_1 st = true <-> exists d, Within s d /\ Is11 d).
Proof. exact read_version. Qed.
Print Assumptions C81_version.
Example C81_version_case : exists s st d, read pa_ident false pa_text = POk (s, st) /\ p_1_1 st = true /\ Within s d /\ Is11 d.
Proof.
  destruct pa_reads as (s & st & R & _ & _ & V). exists s, st. destruct (proj1 (read_version _ _ _ _ _ R) V) as (d & W & I). exists d. auto.
Qed.

(** With kept comments a module behind two comments is refused; behind one it is read. *)
Theorem C81_comments_refuted : exists ident toks,
  (exists s st, read ident false (filter (fun t => match t_tok t with Comment _ _ _ => false | _ => true end) toks) = POk (s, st)) /\
  read ident true toks = PErr (Abort "SYNTAX_ERROR") /\ exists s st, read ident true (tl toks) = POk (s, st).
Proof. exact two_comments. Qed.
Print Assumptions C81_comments_refuted.

(** The label of a position with base names: as if all files had base names, exactly if the
    outer positions have them already. *)
Theorem C81_label : forall base ref line u,
  label_with base true (Position ref line u) = label (rename base (Position ref line u)) <-> match u with None => True | Some q => label q = label (rename base q) end.
Proof. exact label_exact. Qed.
Print Assumptions C81_label.
Example C81_label_case : let base := fun f => if String.eqb f "dir/a.yang" then "a.yang" else f in
  let p := Position "dir/a.yang" "3" (Some (Position "b.yang" "7" None)) in
  label_with base true p = label (rename base p) /\ label p <> label (rename base p).
Proof. split; [reflexivity | vm_compute; discriminate]. Qed.
Theorem C81_label_refuted : exists base p, label_with base true p = "dir/b.yang:7 (at a.yang:3)" /\ label (rename base p) = "b.yang:7 (at a.yang:3)".
Proof. exact label_refuted. Qed.
Print Assumptions C81_label_refuted.
